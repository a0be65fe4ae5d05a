(** Schedules played out: the loops with shared variables go wrong, and the others do something. *)
From Coq Require Import ZArith List Bool Lia Lra Permutation Relation_Operators.
From Verif Require Import FP FPProofs Par ParProofs OmpModel OmpSpec OmpProofs OmpTop OmpLoops OmpDims OmpAlias.
Import ListNotations.
Open Scope nat_scope.

(** follows a schedule: the list of the threads that make the next access; threads at their end are passed over *)
Fixpoint sched (js : list nat) (ps : list prog) (s : store) : list prog * store :=
  match js with
  | [] => (ps, s)
  | j :: r =>
    match nth_error ps j with
    | Some (Read l k) => sched r (put ps j (k (s l))) s
    | Some (Write l v k) => sched r (put ps j k) (set loc_dec s l v)
    | _ => sched r ps s
    end
  end.
Lemma sched_steps js : forall ps s, steps loc_dec (ps, s) (sched js ps s).
Proof.
  induction js as [|j js IH]; intros ps s; cbn [sched]; [apply rt1n_refl|].
  destruct (nth_error ps j) as [[|l k|l v k|]|] eqn:E; try apply IH.
  - eapply rt1n_trans; [apply step_read; exact E|apply IH].
  - eapply rt1n_trans; [apply step_write; exact E|apply IH].
Qed.
Definition is_ret (p : prog) : bool := match p with Ret => true | _ => false end.
Definition all_ret (ps : list prog) : bool := forallb is_ret ps.
Lemma all_ret_ended ps : all_ret ps = true -> ended ps.
Proof. intros H. apply Forall_forall. intros p Hp. apply (proj1 (forallb_forall _ _) H) in Hp. destruct p; try discriminate; reflexivity. Qed.
Definition two : list (list nat) := [[0]; [1]].
Lemma two_fair : fair_plan 2 two. Proof. apply Permutation_refl. Qed.
(** a schedule of a loop with two iterations on two threads, and what it ends with *)
Lemma two_exec (body : nat -> prog) js (s : store) : all_ret (fst (sched js (threads body two) s)) = true -> exec1 loc_dec (Par 2 body) s (snd (sched js (threads body two) s)).
Proof.
  intros H. eapply exec_par; [apply two_fair| |apply all_ret_ended, H]. rewrite <- surjective_pairing. apply sched_steps.
Qed.
Lemma one_phase (f : phase) (s s' : store) : exec1 loc_dec f s s' -> exec loc_dec [f] s s'.
Proof. intros H. econstructor; [exact H|constructor]. Qed.
Definition below (s t : store) (l : loc) : bool := flt (num (s l)) (num (t l)).
Definition val_diff (v w : val) : bool :=
  match v, w with D x, D y => flt x y || flt y x | I a, I b => negb (Z.eqb a b) | _, _ => false end.
Lemma val_diff_ne v w : val_diff v w = true -> v <> w.
Proof.
  intros H ->. destruct w as [x|z|a i]; cbn in H; [|rewrite Z.eqb_refl in H; discriminate|discriminate].
  rewrite orb_diag in H. apply flt_er in H. lra.
Qed.
Definition val_same (v w : val) : bool :=
  match v, w with D x, D y => fle x y && fle y x | I a, I b => Z.eqb a b | P a i, P b j => (if arr_dec a b then true else false) && Nat.eqb i j | _, _ => false end.

(** the two iterations of a function with one loop, played out *)
Definition played (body : nat -> prog) (js : list nat) (s : store) (l : loc) : bool :=
  let r := sched js (threads body two) s in
  all_ret (fst r) && match run loc_dec (chain (map body [0; 1])) s with Some t => val_diff (snd r l) (t l) | None => false end.
Lemma played_dependent body js s l : played body js s l = true -> schedule_dependent [Par 2 body] s l.
Proof.
  intros H. unfold played in H. apply andb_prop in H. destruct H as [H1 H2].
  destruct (run loc_dec (chain (map body [0; 1])) s) as [t|] eqn:E; [|discriminate].
  exists (snd (sched js (threads body two) s)), t. split; [|split].
  - apply one_phase, two_exec, H1.
  - unfold sequential. cbn [map seq1 seq chain fold_right]. rewrite andthen_run. cbn [map chain fold_right] in E. rewrite E. reflexivity.
  - apply val_diff_ne, H2.
Qed.
Lemma dependent_not fs s l : schedule_dependent fs s l -> ~ schedule_independent fs s.
Proof.
  intros (s' & t & E & R & N) (t' & R' & H & _). apply N. assert (t' = t) by congruence. subst t'. apply H, E.
Qed.

(** ** ni_stage *)
Definition z_ (_ : nat) : nat := 0.
Definition fst1 (i : nat) : nat := match i with 0 => 1 | _ => 0 end.
Definition ones : store := fun _ => D f1.
Definition lam0 : loc := (A_qpo Step q_lam, 0, 0).
(** thread 0 sets ni_stage, thread 1 sets it, thread 0 goes on *)
Definition race : list nat := [0; 1] ++ repeat 0 60 ++ repeat 1 60.
Lemma zero_races : schedule_dependent (qp_out_set_to_zero 1 z_ z_ z_ fst1 Step) ones lam0.
Proof. apply (played_dependent _ race). vm_compute. reflexivity. Qed.
Lemma axpy_races : schedule_dependent (qp_out_axpy 1 z_ z_ z_ fst1 f1 Prev Ander Step) ones lam0.
Proof. apply (played_dependent _ race). vm_compute. reflexivity. Qed.
Lemma sc_races : schedule_dependent (qp_out_sc 1 z_ z_ z_ fst1 f0 Step) ones lam0.
Proof. apply (played_dependent _ race). vm_compute. reflexivity. Qed.
Lemma add_races : schedule_dependent (qp_out_add 1 z_ z_ z_ fst1 f1 Prev Step) ones lam0.
Proof. apply (played_dependent _ race). vm_compute. reflexivity. Qed.
(** the other way round the multipliers of a stage without constraints are written *)
Lemma zero_overruns : schedule_dependent (qp_out_set_to_zero 1 z_ z_ z_ fst1 Step) ones (A_qpo Step q_lam, 1, 0).
Proof. apply (played_dependent _ ([1; 0] ++ repeat 1 60 ++ repeat 0 60)). vm_compute. reflexivity. Qed.

(** ** nxu: one control at stage 0, none at stage 1 *)
Lemma hessians_race b : schedule_dependent (setup_hessians 1 z_ fst1 z_ b) ones (A_RSQrq false, 0, 0).
Proof. destruct b; apply (played_dependent _ race); vm_compute; reflexivity. Qed.
Lemma initial_race h d : schedule_dependent (initial_setup 1 z_ fst1 z_ z_ true h d) ones (A_RSQrq true, 0, 0).
Proof. apply (played_dependent _ race). vm_compute. reflexivity. Qed.

(** ** ddot: the same dimensions at both stages *)
Definition one_ (_ : nat) : nat := 1.
Definition ddot_race : list nat := [0; 0; 0; 1; 1; 1] ++ repeat 0 60 ++ repeat 1 60.
Lemma ddot_loses : schedule_dependent (qp_out_ddot 1 one_ z_ z_ z_ Step Prev) ones out_.
Proof.
  unfold qp_out_ddot. set (body := fun i => _ ;; _). set (s1 := set loc_dec ones out_ (D f0)).
  assert (P : played body ddot_race s1 out_ = true) by (vm_compute; reflexivity).
  destruct (played_dependent _ _ _ _ P) as (s' & t & E & R & Ne). exists s', t. split; [|split; [|exact Ne]].
  - econstructor; [apply exec_seq; reflexivity|exact E].
  - unfold sequential. cbn [map chain fold_right]. rewrite andthen_run. exact R.
Qed.
(** the scratch vector: one general constraint at both stages *)
Definition two_lams : store := fun l => match l with (A_qpo _ q_lam, 0, 0) => D f1 | (A_qpo _ _, _, _) => D f0 | _ => D f0 end.
Definition scratch_race : list nat := repeat 0 10 ++ repeat 1 10 ++ repeat 0 60 ++ repeat 1 60.
Lemma ddot_scratch : schedule_dependent (qp_out_ddot 1 z_ z_ z_ one_ Step Prev) two_lams out_.
Proof.
  unfold qp_out_ddot. set (body := fun i => _ ;; _). set (s1 := set loc_dec two_lams out_ (D f0)).
  assert (P : played body scratch_race s1 out_ = true) by (vm_compute; reflexivity).
  destruct (played_dependent _ _ _ _ P) as (s' & t & E & R & Ne). exists s', t. split; [|split; [|exact Ne]].
  - econstructor; [apply exec_seq; reflexivity|exact E].
  - unfold sequential. cbn [map chain fold_right]. rewrite andthen_run. exact R.
Qed.

(** ** Modules that do something *)
(** the dynamics write u + x+ into BAbt, the other modules square ux into RSQrq through their workspace *)
Definition ex_code (m : modl) (i : nat) (f : fn) : mprog :=
  match m with
  | Dyn => MGet (Via p_ux) 0 (fun a => MGet (Via p_ux1) 0 (fun b => MPut (Via p_BAbt) 0 (D (fadd (OmpModel.num a) (OmpModel.num b))) MRet))
  | Cost => MGet (Via p_ux) 0 (fun a => MPut (Work 0) 0 a (MGet (Work 0) 0 (fun b => MPut (Via p_RSQrq) 0 (D (fmul (OmpModel.num a) (OmpModel.num b))) MRet)))
  | Con => MRet
  end.
Lemma ex_obeys o m i f : has 1 m i -> obeys true (fun _ => false) o m i (ex_code m i f).
Proof. intros _. destruct m; repeat (split; [reflexivity|intros]); exact Logic.I. Qed.
(** memory as calloc leaves it, with different inputs at the two stages *)
Definition ex_mem : store := fun l =>
  match l with
  | (A_opts Dyn 1, _, _) => I 0
  | (A_ux Out, 0, 0) => D f1 | (A_ux Out, 1, 0) => D (fadd f1 f1)
  | _ => D f0
  end.
Lemma ex_option : cost_option (fun _ => false) 1 ex_mem.
Proof. intros i Hi. exists 0%Z. split; [reflexivity|]. split; [discriminate|congruence]. Qed.
Definition ex_wired : store := match run loc_dec (alias_sequential 1 true false) ex_mem with Some t => t | None => ex_mem end.
Lemma ex_alias : run loc_dec (alias_sequential 1 true false) ex_mem = Some ex_wired.
Proof.
  unfold ex_wired. destruct (run loc_dec (alias_sequential 1 true false) ex_mem) as [t|] eqn:E; [reflexivity|].
  assert (X : (match run loc_dec (alias_sequential 1 true false) ex_mem with Some _ => true | None => false end) = true) by (vm_compute; reflexivity).
  rewrite E in X. discriminate X.
Qed.
Lemma ex_is_wired : wired true (fun _ => false) 1 Out ex_wired.
Proof. eapply alias_wires; [apply ex_option|apply ex_alias]. Qed.
(** the calls of a linearisation *)
Definition ex_calls (reuse : bool) : list (list phase) :=
  [initialize_submodules true reuse ex_code 1; approximate_qp_matrices true reuse ex_code 1 one_ one_ one_; approximate_qp_vectors true reuse ex_code 1 one_ z_ one_].
Lemma ex_independent reuse : schedule_independent (concat (ex_calls reuse)) ex_wired.
Proof.
  apply (pieces_independent reuse ex_code 1 one_ one_ z_ z_ z_ one_ z_ true (fun _ => false)).
  - intros; apply ex_obeys; assumption.
  - constructor; [constructor|]. constructor; [constructor|]. constructor; [constructor|constructor].
  - apply ex_is_wired.
Qed.
(** the result: BAbt = 1 + 2 at stage 0, RSQrq = 4 at stage 1 *)
Example ex_value : match run loc_dec (sequential (concat (ex_calls true))) ex_wired with
  | Some t => val_same (t (A_BAbt, 0, 0)) (D (fadd f1 (fadd f1 f1))) && val_same (t (A_RSQrq false, 1, 0)) (D (fadd (fadd f1 f1) (fadd f1 f1)))
  | None => false end = true.
Proof. vm_compute. reflexivity. Qed.
(** a schedule in which the threads take turns *)
Fixpoint turns (n : nat) : list nat := match n with O => [] | S n => 0 :: 1 :: turns n end.
Example ex_turns : let body := fun i => OmpModel.C true true ex_code Cost i update_qp_matrices in
  let r := sched (turns 20) (threads body two) ex_wired in
  all_ret (fst r) && val_same (snd r (A_RSQrq false, 0, 0)) (D f1) && val_same (snd r (A_RSQrq false, 1, 0)) (D (fadd (fadd f1 f1) (fadd f1 f1))) = true.
Proof. vm_compute. reflexivity. Qed.
(** with the workspaces of a library without OpenMP (omp = false, reuse = true) the same loop would race *)
Lemma shared_work_races : schedule_dependent [Par 2 (fun i => OmpModel.C false true ex_code Cost i update_qp_matrices)] ex_wired (A_RSQrq false, 0, 0).
Proof. apply (played_dependent _ ([0; 0; 0; 1; 1; 1] ++ repeat 0 20 ++ repeat 1 20)). vm_compute. reflexivity. Qed.
(** three threads on the region that sets the pointers *)
Example ex_alias_fair : alias_fair 1 [([0], [1], [], []); ([], [0], [1], [0]); ([], [], [0], [])].
Proof.
  repeat split; unfold fair_plan; cbn; try reflexivity.
  - apply perm_swap.
  - apply perm_swap.
Qed.
(** equal dimensions: nothing wrong with the loops over an ocp_qp_out *)
Lemma ex_uniform : schedule_independent (concat [qp_out_axpy 1 one_ one_ z_ one_ f1 Prev Ander Step; qp_out_sc 1 one_ one_ z_ one_ f1 Step]) ex_wired.
Proof.
  apply (uniform_independent true ex_code 1 one_ one_ z_ z_ one_ one_ z_ true (fun _ => false)); try reflexivity.
  - intros; apply ex_obeys; assumption.
  - repeat (constructor; [right; constructor|]). constructor.
  - apply ex_is_wired.
Qed.

(** ** The statements *)
Lemma alias_region N sens_forw sens_adj integrated s : cost_option integrated N s ->
  (forall s', alias_exec N sens_forw sens_adj s s' -> exists t, run loc_dec (alias_sequential N sens_forw sens_adj) s = Some t /\ same s' t) /\
  (forall plan ps s', alias_fair N plan -> steps loc_dec (map (alias_thread sens_forw sens_adj) plan, s) (ps, s') ->
     ~ stuck ps /\ exists qs t, steps loc_dec (ps, s') (qs, t) /\ ended qs) /\
  (forall t, run loc_dec (alias_sequential N sens_forw sens_adj) s = Some t -> wired sens_forw integrated N Out t).
Proof.
  intros H. split; [|split].
  - intros s' E. eapply alias_deterministic; eauto.
  - intros plan ps s' F St. eapply alias_no_stop; eauto.
  - intros t E. eapply alias_wires; eauto.
Qed.
Lemma axpy_refuted : exists nx nu ns ni s, schedule_dependent (qp_out_axpy 1 nx nu ns ni f1 Prev Ander Step) s lam0.
Proof. do 5 eexists. apply axpy_races. Qed.
Lemma zero_refuted : exists nx nu ns ni s, ni 1 = 0 /\ schedule_dependent (qp_out_set_to_zero 1 nx nu ns ni Step) s lam0 /\
  schedule_dependent (qp_out_set_to_zero 1 nx nu ns ni Step) s (A_qpo Step q_lam, 1, 0).
Proof. exists z_, z_, z_, fst1, ones. split; [reflexivity|split; [apply zero_races|apply zero_overruns]]. Qed.
Lemma sc_refuted : exists nx nu ns ni s, schedule_dependent (qp_out_sc 1 nx nu ns ni f0 Step) s lam0.
Proof. do 5 eexists. apply sc_races. Qed.
Lemma add_refuted : exists nx nu ns ni s, schedule_dependent (qp_out_add 1 nx nu ns ni f1 Prev Step) s lam0.
Proof. do 5 eexists. apply add_races. Qed.
Lemma hessians_refuted b : exists s, schedule_dependent (setup_hessians 1 (fun _ => 1) (fun i => 1 - i) (fun _ => 0) b) s (A_RSQrq false, 0, 1).
Proof. exists ones. destruct b; apply (played_dependent _ race); vm_compute; reflexivity. Qed.
Lemma initial_refuted h d : exists s, schedule_dependent (initial_setup 1 (fun _ => 1) (fun i => 1 - i) (fun _ => 0) (fun _ => 0) true h d) s (A_RSQrq true, 0, 1).
Proof. exists ones. apply (played_dependent _ race). vm_compute. reflexivity. Qed.
Lemma ddot_refuted :
  (exists s, schedule_dependent (qp_out_ddot 1 (fun _ => 1) (fun _ => 0) (fun _ => 0) (fun _ => 0) Step Prev) s out_) /\
  (exists s, schedule_dependent (qp_out_ddot 1 (fun _ => 0) (fun _ => 0) (fun _ => 0) (fun _ => 1) Step Prev) s out_).
Proof. split; [exists ones; apply ddot_loses|exists two_lams; apply ddot_scratch]. Qed.
Lemma shared_refuted : exists code s, (forall o m i f, has 1 m i -> obeys true (fun _ => false) o m i (code m i f)) /\
  wired true (fun _ => false) 1 Out s /\ schedule_dependent [Par 2 (fun i => OmpModel.C false true code Cost i update_qp_matrices)] s (A_RSQrq false, 0, 0).
Proof. exists ex_code, ex_wired. split; [intros; apply ex_obeys; assumption|split; [apply ex_is_wired|apply shared_work_races]]. Qed.
