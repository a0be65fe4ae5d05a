From Coq Require Import ZArith List Bool Lia.
From Verif Require Import Arr DimsModel DimsSpec DimsProofs.
Import ListNotations.
Open Scope Z_scope.

Lemma total_ext n f g : (forall i, (i < n)%nat -> f i = g i) -> total n f = total n g.
Proof. intro H. unfold total. f_equal. apply map_ext_in. intros i Hi. apply H. apply in_seq in Hi; lia. Qed.
Lemma dims_totals N h d t : do_calls N h fresh = Some d -> precompute_dims N d = Some t ->
  nx_total t = total (S N) (last_opt h oNx) /\ nu_total t = total N (last_opt h oNu) /\ nz_total t = total N (last_opt h oNz) /\
  ns_total t = total (S N) (last_opt h oNs) /\ np_total t = total (S N) (last_opt h oNp) /\ ny_total t = total (S N) (last_ny h) /\
  nbx_total t = total (S N) (last_con h cNbx) /\ nbu_total t = total N (last_con h cNbu) /\ ng_total t = total (S N) (last_con h cNg) /\
  nh_total t = total (S N) (last_con h cNh) /\
  ((forall i, (i <= N)%nat -> ni_current h i = true) ->
   ni_total t = total (S N) (fun i => last_con h cNbx i + last_con h cNbu i + last_con h cNg i + last_con h cNh i + last_opt h oNs i)).
Proof.
  intros H P. pose proof (holds_run _ _ _ H) as A. unfold precompute_dims in P. destruct (forallb _ _) eqn:F in P; [|discriminate]. apply (f_equal (fun o => match o with Some t => t | None => t end)) in P. rewrite <- P.
  cbn [nx_total nu_total nz_total ns_total np_total ny_total nbx_total nbu_total ng_total nh_total ni_total]. rewrite !acc_fold.
  repeat (split; [apply total_ext; intros i Hi; destruct (A i); [lia|]; rewrite ?h_ng; first [assumption|apply h_con; discriminate]|]).
  intro C. apply total_ext; intros i Hi. destruct (A i); [lia|]. rewrite h_ni by (apply C; lia). rewrite !h_con by discriminate.
  rewrite forallb_forall in F. specialize (F i). rewrite in_seq in F. specialize (F ltac:(lia)). apply Z.eqb_eq in F. rewrite h_con in F by discriminate. lia.
Qed.
Lemma dims_stage N h d i : do_calls N h fresh = Some d -> (i <= N)%nat ->
  nx (d i) = last_opt h oNx i /\ nu (d i) = last_opt h oNu i /\ nz (d i) = last_opt h oNz i /\ ns (d i) = last_opt h oNs i /\ np (d i) = last_opt h oNp i /\
  nv (d i) = last_opt h oNu i + last_opt h oNx i + 2 * last_opt h oNs i /\ ny (d i) = last_ny h i /\
  nb (d i) = last_con h cNbu i + last_con h cNbx i /\ ng (d i) = last_con h cNg i /\ ni_nl (d i) = last_con h cNh i /\
  (forall f, f <> cNb -> f <> cNsDerived -> con (d i) f = last_con h f i).
Proof.
  intros H Hi. destruct (holds_run _ _ _ H i Hi). rewrite h_nv, h_nb, h_ng, h_ni_nl. rewrite !(h_con) by discriminate.
  repeat split; auto. lia.
Qed.
Lemma dims_solvers N h d i : do_calls N h fresh = Some d -> (i <= N)%nat ->
  let c f := last_con h f i in let x := last_opt h oNx i in let u := last_opt h oNu i in
  qp (d i) = mkQ x u (c cNbx) (c cNbu) (c cNg + c cNh) (last_opt h oNs i) (c cNbxe) (c cNbue) (c cNge + c cNhe) /\
  rqp (d i) = mkQ x u (c cNbx) (c cNbu) (c cNg + c cNh) (c cNg + c cNh + c cNsbu + (if (i =? 0)%nat then c cNsbx else c cNbx)) (c cNbxe) 0 0 /\
  reg (d i) = mkR x u (c cNbx) (c cNbu) (c cNg + c cNh).
Proof.
  intros H Hi. destruct (holds_run _ _ _ H i Hi). cbv zeta. rewrite h_qp, h_rqp, h_reg, h_nx, h_nu, h_ns.
  rewrite !(h_con) by discriminate. auto.
Qed.
Lemma dims_ni N h d i : do_calls N h fresh = Some d -> (i <= N)%nat -> ni_current h i = true ->
  ni (d i) = last_con h cNbx i + last_con h cNbu i + last_con h cNg i + last_con h cNh i + last_con h cNs i.
Proof. intros H Hi C. destruct (holds_run _ _ _ H i Hi). rewrite h_ni by auto. now rewrite !(h_con) by discriminate. Qed.
Lemma dims_precompute N h d : do_calls N h fresh = Some d ->
  ((exists t, precompute_dims N d = Some t) <-> forall i, (i <= N)%nat -> last_opt h oNs i = last_con h cNs i).
Proof.
  intro H. pose proof (holds_run _ _ _ H) as A. unfold precompute_dims. split.
  - intros (t & P) i Hi. destruct (forallb _ _) eqn:F in P; [|discriminate]. rewrite forallb_forall in F. specialize (F i). rewrite in_seq in F. specialize (F ltac:(lia)).
    apply Z.eqb_eq in F. destruct (A i Hi). rewrite h_con in F by discriminate. congruence.
  - intro C. replace (forallb _ _) with true; [eauto|]. symmetry. apply forallb_forall. intros i Hi. apply in_seq in Hi. apply Z.eqb_eq.
    destruct (A i); [lia|]. rewrite h_con by discriminate. rewrite h_ns. apply C; lia.
Qed.

(** evaluate a condition on the result of a history *)
Definition outcome_is (N : nat) (h : list call) (p : ndims -> totals -> bool) : bool :=
  match do_calls N h fresh with Some d => match precompute_dims N d with Some t => p d t | None => false end | None => false end.
Lemma outcome_elim N h p : outcome_is N h p = true -> exists d t, do_calls N h fresh = Some d /\ precompute_dims N d = Some t /\ p d t = true.
Proof.
  unfold outcome_is. destruct (do_calls N h fresh) as [d|] eqn:E; [|intro X; discriminate X].
  destruct (precompute_dims N d) as [t|] eqn:F; [|intro X; discriminate X]. eauto.
Qed.
Ltac acc := repeat (apply Forall_cons; [first [exact I | split; [lia|split; [let X := fresh in intro X; discriminate X|split; [let X := fresh in intro X; discriminate X|let X := fresh in intro X; first [discriminate X|left; reflexivity|right; reflexivity]]]] | apply le_n | apply le_S, le_n | apply le_S, le_S, le_n]|]); apply Forall_nil.
(** the slacks are announced after the constraints *)
Definition late_ns : list call :=
  [OptVars oNx (fun _ => 1); Constr 0 cNh 2; Constr 0 cNsh 2; OptVars oNs (fun i => if (i =? 0)%nat then 2 else 0)].
Lemma ni_stale : exists N h d t i, Forall (accepted N) h /\ do_calls N h fresh = Some d /\ precompute_dims N d = Some t /\ (i <= N)%nat /\
  (forall j, (j <= N)%nat -> last_opt h oNs j = last_con h cNsbu j + last_con h cNsbx j + last_con h cNsg j + last_con h cNsh j) /\
  ni (d i) < last_con h cNbx i + last_con h cNbu i + last_con h cNg i + last_con h cNh i + last_opt h oNs i.
Proof.
  exists 1%nat, late_ns. destruct (outcome_elim 1 late_ns (fun d _ => ni (d 0%nat) =? 2)) as (d & t & A & B & C); [vm_compute; reflexivity|].
  exists d, t, 0%nat. split; [|split; [exact A|split; [exact B|split; [lia|split]]]].
  - unfold late_ns. acc.
  - intros j Hj. destruct j as [|[|j]]; [reflexivity|reflexivity|lia].
  - apply Z.eqb_eq in C. rewrite C. vm_compute. reflexivity.
Qed.
(** a history with overwrites *)
Definition ex_h : list call :=
  [OptVars oNx (fun _ => 7); OptVars oNu (fun i => if (i <? 2)%nat then 2 else 0); OptVars oNs (fun i => Z.of_nat i); OptVars oNx (fun _ => 3);
   Constr 0 cNbx 3; Constr 0 cNbxe 3; Constr 0 cNbu 9; Constr 0 cNbu 2; Constr 1 cNg 1; Constr 1 cNh 2; Constr 1 cNsh 1; Constr 2 cNh 4; Constr 2 cNsh 2; CostNy 2 5].
Lemma ex_dims : Forall (accepted 2) ex_h /\ (forall i, (i <= 2)%nat -> ni_current ex_h i = true) /\
  exists d t, do_calls 2 ex_h fresh = Some d /\ precompute_dims 2 d = Some t /\
    nx_total t = 9 /\ nu_total t = 4 /\ ni_total t = 15 /\ map (fun i => nv (d i)) [0; 1; 2]%nat = [5; 7; 7] /\ qNs (rqp (d 1%nat)) = 3.
Proof.
  split; [unfold ex_h; acc|].
  split; [intros i Hi; destruct i as [|[|[|i]]]; [reflexivity|reflexivity|reflexivity|lia]|].
  destruct (outcome_elim 2 ex_h (fun d t => (nx_total t =? 9) && (nu_total t =? 4) && (ni_total t =? 15) && (nv (d 0%nat) =? 5) && (nv (d 1%nat) =? 7) && (nv (d 2%nat) =? 7) && (qNs (rqp (d 1%nat)) =? 3)))
    as (d & t & A & B & C); [vm_compute; reflexivity|].
  exists d, t. repeat rewrite andb_true_iff in C. rewrite !Z.eqb_eq in C. destruct C as ((((((C1 & C2) & C3) & C4) & C5) & C6) & C7).
  split; [exact A|]. split; [exact B|]. repeat split; auto. cbn [map]. now rewrite C4, C5, C6.
Qed.
