(** Each parallel function of the solver. *)
From Coq Require Import ZArith List Bool Lia Permutation.
From Verif Require Import FP Par ParProofs OmpModel OmpSpec OmpProofs OmpTop.
Import ListNotations.
Open Scope nat_scope.

Section Loops.
Context (reuse : bool) (code : modl -> nat -> fn -> mprog).
Context (N : nat) (nx nu nz ns ni nv nns : nat -> nat) (sens_forw sens_adj : bool) (integrated : nat -> bool).
Notation wired := (wired sens_forw integrated N).
Context (Hobeys : forall o m i f, has N m i -> obeys sens_forw integrated o m i (code m i f)).
Notation cw := (cw N sens_forw integrated).

Definition notptr (l : loc) : Prop := match arr_of l with A_ptr _ _ => False | _ => True end.
Lemma seq_wired o p : within (cw o) noU (fun _ => True) notptr none p -> good (wired o) (wired o) (Seq p).
Proof.
  intros H. apply good_seq. intros s Hs. apply wired_holds in Hs.
  destruct (run_total loc_dec (cw o) noU ltac:(intros; reflexivity) (fun _ : loc => True) notptr p) with (K := @none loc) (s := s) as (t & R1 & R2 & _); auto.
  - intros [[a i] k] X. split; [|reflexivity]. destruct a; try reflexivity. destruct X.
  - apply knows_none.
  - exists t; split; [exact R1|]. apply wired_holds, R2.
Qed.
Lemma seq_part o w i p : (forall m f, w (A_ptr m f) = false) -> within (cw o) noU (sR w i) (sW w i) none p -> within (cw o) noU (fun _ => True) notptr none p.
Proof.
  intros Hp. apply within_mono; auto. intros [[a j] k] [_ X]. unfold notptr, arr_of in *. cbn in *. destruct a; auto. rewrite Hp in X. discriminate.
Qed.

Definition mall (a : arr) : bool := mw Dyn a || mw Cost a || mw Con a.
Definition wl (l : list arr) (a : arr) : bool := existsb (fun b => if arr_dec a b then true else false) l.

(** the module writes only arrays of the loop *)
Ltac modules := intros a X; unfold mall, wl; rewrite ?X, ?orb_true_r; reflexivity.
Ltac has_ := cbn; try lia; match goal with H : (_ <? _) = true |- _ => apply Nat.ltb_lt in H; lia | _ => idtac end.
Ltac mdl := apply in_C; [exact Hobeys|try reflexivity|modules|has_].
Ltac go := repeat first
    [ apply in_and | apply in_when; intros | mdl
    | apply in_vecse; cell | apply in_veccp; cell | apply in_vecad; cell | apply in_axpy; cell | apply in_axpby; cell
    | apply in_kern; [repeat (apply Forall_app; split); try apply Forall_nil; apply in_cells; cell
                     |apply in_cells; cell]
    | exact Logic.I ].
Ltac lp w := apply (par_wired N sens_forw integrated _ w); [reflexivity|intros i Hi].

Notation W := (wired Out).
Definition fine (fs : list phase) : Prop := all_good W (map (fun f => (f, W)) fs).

Lemma fine_init : fine (initialize_submodules true reuse code N).
Proof. split; [|split; [apply wired_closed|exact Logic.I]]. lp mall. go. Qed.
Lemma in_collect (w : arr -> bool) i : w A_dyn_adj = true -> (forall k, w (A_mem Dyn k) = false) -> i < N + 1 ->
  within (cw Out) noU (sR w i) (sW w i) none (collect_adj N nx nu i).
Proof.
  intros H1 H2 Hi. unfold collect_adj. apply in_and.
  - destruct (i <? N) eqn:E; go.
    apply Nat.ltb_ge in E. lia.
  - go.
Qed.
Lemma fine_matrices : fine (approximate_qp_matrices true reuse code N nx nu nv).
Proof.
  split; [|split; [apply wired_closed|split; [|split; [apply wired_closed|exact Logic.I]]]].
  - lp mall. go.
  - lp (wl [A_cost_grad; A_dyn_fun; A_dyn_adj; A_ineq_adj]). apply in_and; [go|]. apply in_and; [go|]. apply in_and; [|go].
    apply in_collect; auto.
Qed.
Lemma fine_vectors : fine (approximate_qp_vectors true reuse code N nx ni nv).
Proof.
  split; [|split; [apply wired_closed|exact Logic.I]].
  lp (fun a => mw Con a || wl [A_rqz false; A_b; A_ineq_fun; A_d false] a). go.
Qed.
Lemma good_con_fun : good W W (Par (N + 1) (con_fun true reuse code ni)).
Proof. lp (fun a => mw Con a || wl [A_ineq_fun; A_d false] a). go. Qed.
Lemma fine_zero_order g : fine (zero_order_qp_update true reuse code N nx nu ni g).
Proof.
  split; [|split; [apply wired_closed|split; [|split; [apply wired_closed|split; [|split; [apply wired_closed|exact Logic.I]]]]]].
  - apply good_con_fun.
  - lp (fun a => mw Dyn a || wl [A_b; A_dyn_fun] a). go.
  - apply seq_wired. apply in_each. intros i Hi. apply in_kern; [repeat (apply Forall_app; split)|]; apply in_cells; cell.
Qed.
Lemma fine_level_c g : fine (level_c_update true reuse code N nx nu ni nv g).
Proof.
  split; [|split; [apply wired_closed|split; [|split; [apply wired_closed|split; [|split; [apply wired_closed|exact Logic.I]]]]]].
  - apply good_con_fun.
  - lp (fun a => mw Cost a || wl [A_cost_grad; A_rqz false] a). go.
  - lp (fun a => mw Dyn a || wl [A_b; A_dyn_fun; A_rqz false] a). go.
Qed.
Lemma fine_residual : fine (full_residual true reuse code N nx nu nv).
Proof.
  split; [|split; [apply wired_closed|split; [|split; [apply wired_closed|split; [|split; [apply wired_closed|exact Logic.I]]]]]].
  - apply seq_wired. apply in_chain_map. intros i Hi. apply in_seq in Hi. apply (seq_part Out (mw Dyn) i); [reflexivity|]. mdl.
  - apply seq_wired. apply in_chain_map. intros i Hi. apply in_seq in Hi. apply (seq_part Out (fun a => mw Con a || wl [A_ineq_adj] a) i); [reflexivity|]. go.
  - lp (fun a => mw Cost a || wl [A_cost_grad; A_dyn_adj] a). apply in_and; [go|]. apply in_and; [go|]. apply in_collect; auto.
Qed.
Lemma fine_update d al fd g : fine (update_variables N nx nu nz ni nv g d al fd).
Proof.
  split; [|split; [apply wired_closed|exact Logic.I]].
  lp (wl [A_ux d; A_lam d; A_pi d; A_z d]). unfold z_update. destruct d; destruct fd; go.
Qed.
Lemma fine_to_delta q : fine (to_delta N nx ni q).
Proof. split; [|split; [apply wired_closed|exact Logic.I]]. lp (wl [A_qpo q q_lam; A_qpo q q_pi]). destruct q; go. Qed.
Lemma fine_update_delta q al g : fine (update_delta N nx nu nz ni nv g q al).
Proof. split; [|split; [apply wired_closed|exact Logic.I]]. lp (wl [A_ux Out; A_lam Out; A_pi Out; A_z Out]). unfold z_update. go. Qed.
Lemma fine_jac np z : fine (params_jac true reuse code N nx nu ns nv np z).
Proof. split; [|split; [apply wired_closed|exact Logic.I]]. lp mall. destruct (i <? N) eqn:E; go. Qed.
Lemma fine_relaxed : fine (relaxed_bounds N ns ni nns).
Proof. split; [|split; [apply wired_closed|exact Logic.I]]. lp (wl [A_d true]). go. Qed.
Lemma fine_seq p : leaves_pointers p -> fine [Seq p].
Proof.
  intros H. split; [|split; [apply wired_closed|exact Logic.I]]. apply good_seq. intros s Hs. destruct (H s) as (t & Ht & Hp).
  exists t; split; [exact Ht|]. intros m i f a j A B. rewrite Hp. eapply Hs; eauto.
Qed.

(** evaluation at the trial point *)
Lemma set_run (s : store) l v : run loc_dec (Write l v Ret) s = Some (set loc_dec s l v).
Proof. reflexivity. Qed.
Lemma set_eq (s : store) l v : set loc_dec s l v l = v.
Proof. unfold set. destruct (loc_dec l l); congruence. Qed.
Lemma set_ne (s : store) l v x : x <> l -> set loc_dec s l v x = s x.
Proof. unfold set. destruct (loc_dec x l); congruence. Qed.
Lemma set_dyn o s t n : run loc_dec (chain (map (fun i => setp Dyn i p_ux (A_ux o) i ;; setp Dyn i p_ux1 (A_ux o) (i + 1)) (seq 0 n))) s = Some t ->
  (forall i, i < n -> t (A_ptr Dyn p_ux, i, 0) = P (A_ux o) i /\ t (A_ptr Dyn p_ux1, i, 0) = P (A_ux o) (i + 1)) /\
  forall l, (forall i, i < n -> l <> (A_ptr Dyn p_ux, i, 0) /\ l <> (A_ptr Dyn p_ux1, i, 0)) -> t l = s l.
Proof.
  revert t. induction n as [|n IH]; intros t H.
  - injection H as <-. split; [intros; lia|reflexivity].
  - rewrite seq_S, map_app, chain_app in H. destruct (run loc_dec _ s) as [r|] eqn:E in H; [|discriminate].
    destruct (IH r E) as [H1 H2]. cbn in H. injection H as <-. split.
    + intros i Hi. destruct (Nat.eq_dec i n) as [->|Ne].
      * rewrite set_eq, set_ne, set_eq by congruence. auto.
      * rewrite !set_ne by congruence. apply H1; lia.
    + intros l Hl. destruct (Hl n ltac:(lia)) as [A B]. rewrite !set_ne by auto. apply H2. intros i Hi; apply Hl; lia.
Qed.
Lemma set_cc o s t n : run loc_dec (chain (map (fun i => setp Cost i p_ux (A_ux o) i ;; setp Con i p_ux (A_ux o) i) (seq 0 n))) s = Some t ->
  (forall i, i < n -> t (A_ptr Cost p_ux, i, 0) = P (A_ux o) i /\ t (A_ptr Con p_ux, i, 0) = P (A_ux o) i) /\
  forall l, (forall i, i < n -> l <> (A_ptr Cost p_ux, i, 0) /\ l <> (A_ptr Con p_ux, i, 0)) -> t l = s l.
Proof.
  revert t. induction n as [|n IH]; intros t H.
  - injection H as <-. split; [intros; lia|reflexivity].
  - rewrite seq_S, map_app, chain_app in H. destruct (run loc_dec _ s) as [r|] eqn:E in H; [|discriminate].
    destruct (IH r E) as [H1 H2]. cbn in H. injection H as <-. split.
    + intros i Hi. destruct (Nat.eq_dec i n) as [->|Ne].
      * rewrite set_eq, set_ne, set_eq by congruence. auto.
      * rewrite !set_ne by congruence. apply H1; lia.
    + intros l Hl. destruct (Hl n ltac:(lia)) as [A B]. rewrite !set_ne by auto. apply H2. intros i Hi; apply Hl; lia.
Qed.
Lemma writes_run (f : nat -> prog) c : (forall i s, exists t, run loc_dec (f i) s = Some t) -> forall s, exists t, run loc_dec (chain (map f c)) s = Some t.
Proof.
  intros H. induction c as [|x c IH]; intros s; cbn; [eauto|]. change (fold_right andthen Ret (map f c)) with (chain (map f c)).
  rewrite andthen_run. destruct (H x s) as (t & ->). apply IH.
Qed.
Lemma good_set o o' : good (wired o) (wired o') (Seq (set_primal N o')).
Proof.
  apply good_seq. intros s Hs. unfold set_primal. rewrite andthen_run.
  destruct (writes_run (fun i => setp Dyn i p_ux (A_ux o') i ;; setp Dyn i p_ux1 (A_ux o') (i + 1)) (seq 0 N)) with (s := s) as (r & Hr); [intros; eexists; reflexivity|].
  rewrite Hr.
  destruct (writes_run (fun i => setp Cost i p_ux (A_ux o') i ;; setp Con i p_ux (A_ux o') i) (seq 0 (N + 1))) with (s := r) as (t & Ht); [intros; eexists; reflexivity|].
  exists t; split; [exact Ht|]. destruct (set_dyn o' s r N Hr) as [D1 D2]. destruct (set_cc o' r t (N + 1) Ht) as [E1 E2].
  intros m i f a j Hm El.
  assert (Other : f <> p_ux -> f <> p_ux1 -> t (A_ptr m f, i, 0) = P a j).
  { intros F1 F2. rewrite E2, D2 by (intros; split; congruence). apply (Hs m i f a j Hm).
    rewrite <- El. destruct m, f; try reflexivity; congruence. }
  destruct f; try (apply Other; discriminate).
  - destruct m; cbn in El; injection El as <- <-; cbn in Hm.
    + rewrite E2 by (intros; split; congruence). apply D1, Hm.
    + apply E1. lia.
    + apply E1. lia.
  - destruct m; try discriminate. cbn in El. injection El as <- <-. rewrite E2 by (intros; split; congruence). apply D1, Hm.
Qed.
Lemma trial_good : exists l, map fst l = eval_trial true reuse code N /\ all_good W l /\ List.last (map snd l) W = W.
Proof.
  exists [(Seq (set_primal N Tmp), wired Tmp); (Par N (fun i => C true reuse code Dyn i compute_fun), wired Tmp);
     (Par (N + 1) (fun i => C true reuse code Cost i compute_fun), wired Tmp); (Par (N + 1) (fun i => C true reuse code Con i compute_fun), wired Tmp);
     (Seq (set_primal N Out), W); (Seq (sum_costs N), W)].
  split; [reflexivity|]. split; [|reflexivity]. split; [|split; [apply wired_closed|split; [|split; [apply wired_closed|split; [|split; [apply wired_closed|split; [|split; [apply wired_closed|split; [|split; [apply wired_closed|split; [|split; [apply wired_closed|exact Logic.I]]]]]]]]]]]].
  - apply good_set.
  - lp (mw Dyn). mdl.
  - lp (mw Cost). mdl.
  - lp (mw Con). mdl.
  - apply good_set.
  - apply seq_wired. unfold sum_costs. apply in_and.
    + apply in_write; [cell|exact Logic.I].
    + apply in_each. intros i Hi. apply in_read; [cell|]. intros v. apply in_read; [cell|]. intros v'. apply in_write; [cell|exact Logic.I].
Qed.

Lemma all_good_app l m pre : all_good pre l -> (forall q, q = List.last (map snd l) pre -> all_good q m) -> all_good pre (l ++ m).
Proof.
  revert pre. induction l as [|[f p] l IH]; intros pre H K; cbn in *; [apply K; reflexivity|].
  destruct H as (A & B & D). split; [exact A|split; [exact B|]]. apply IH; [exact D|]. intros q ->. apply K.
  destruct l as [|x l]; [reflexivity|]. clear. cbn [map]. revert x. generalize p at 1, pre. induction l as [|y l IH]; intros p1 p2 x; [reflexivity|]. apply IH.
Qed.
Definition sound (fs : list phase) : Prop := exists l, map fst l = fs /\ all_good W l /\ List.last (map snd l) W = W.
Lemma fine_good gs : fine gs -> sound gs.
Proof.
  intros H. exists (map (fun f => (f, W)) gs). split; [|split; [exact H|]].
  - rewrite map_map. cbn. apply map_id.
  - rewrite map_map. cbn. clear H. induction gs as [|g [|h gs] IH]; auto.
Qed.
Lemma piece_good fs : piece reuse code N nx nu nz ns ni nv nns fs -> sound fs.
Proof.
  intros H. destruct H.
  - now apply fine_good, fine_seq.
  - apply fine_good, fine_init.
  - apply fine_good, fine_matrices.
  - apply fine_good, fine_vectors.
  - apply fine_good, fine_zero_order.
  - apply fine_good, fine_level_c.
  - apply fine_good, fine_residual.
  - apply fine_good, fine_update.
  - apply fine_good, fine_to_delta.
  - apply fine_good, fine_update_delta.
  - exact trial_good.
  - apply fine_good, fine_jac.
  - apply fine_good, fine_relaxed.
Qed.
Lemma pieces_concat calls : Forall sound calls -> sound (concat calls).
Proof.
  induction 1 as [|fs calls H _ IH]; [exists []; repeat split|].
  destruct H as (l & A1 & A2 & A3). destruct IH as (m & B1 & B2 & B3).
  exists (l ++ m). split; [|split].
  - rewrite map_app, A1, B1. reflexivity.
  - apply all_good_app; [exact A2|]. intros q ->. rewrite A3. exact B2.
  - rewrite map_app. destruct m as [|x m]; [rewrite app_nil_r; exact A3|]. rewrite <- B3.
    assert (E : forall (k k' : list (store -> Prop)) x d d', List.last (k ++ x :: k') d = List.last (x :: k') d').
    { clear. intros k. induction k as [|a k IH]; intros k' x d d'.
      - cbn [app]. revert x. induction k' as [|y k' IH]; intros x; [reflexivity|exact (IH y)].
      - cbn [app]. destruct (k ++ x :: k') eqn:F; [destruct k; discriminate|]. rewrite <- F in *. rewrite <- (IH k' x d d'). rewrite F. reflexivity. }
    apply E.
Qed.
Theorem pieces_independent calls s : Forall (piece reuse code N nx nu nz ns ni nv nns) calls -> W s -> schedule_independent (concat calls) s.
Proof.
  intros H Hs. destruct (pieces_concat calls) as (l & <- & G & _); [|eapply compose; eauto].
  eapply Forall_impl; [|exact H]. apply piece_good.
Qed.
End Loops.
