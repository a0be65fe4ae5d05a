(** The region of ocp_nlp_alias_memory_to_submodules: four loops that do not wait for each other and a statement that
    every thread executes. *)
From Coq Require Import ZArith List Bool Lia Permutation FunctionalExtensionality Setoid Morphisms.
From Verif Require Import FP Par ParProofs OmpModel OmpSpec OmpProofs OmpTop.
Import ListNotations.
Open Scope nat_scope.

(** sequencing is associative *)
Lemma and_assoc (p q r : prog) : (p ;; q) ;; r = p ;; q ;; r.
Proof.
  induction p as [|l k IH|l v k IH|]; cbn; auto.
  - f_equal. extensionality v. apply IH.
  - f_equal. exact IH.
Qed.
Lemma and_ret (p : prog) : p ;; Ret = p.
Proof. induction p as [|l k IH|l v k IH|]; cbn; auto; f_equal; auto. extensionality v. apply IH. Qed.
Lemma chain_cat (a b : list prog) : chain (a ++ b) = chain a ;; chain b.
Proof.
  induction a as [|p a IH]; [reflexivity|]. cbn [app]. change (chain (p :: a ++ b)) with (p ;; chain (a ++ b)).
  change (chain (p :: a)) with (p ;; chain a). rewrite IH. symmetry. apply and_assoc.
Qed.

Section Alias.
Context (N : nat) (sens_forw sens_adj : bool) (integrated : nat -> bool).
Notation wired := (wired sens_forw integrated N).
Notation leads := (leads sens_forw integrated Out).
Notation adyn := (alias_dyn sens_forw sens_adj).
Notation acost := (alias_cost sens_forw sens_adj).
Notation acon := (alias_con sens_forw sens_adj).
Notation athread := (alias_thread sens_forw sens_adj).
Notation aexec := (alias_exec N sens_forw sens_adj).
Notation aseq := (alias_sequential N sens_forw sens_adj).

(** the pieces of work as one loop *)
Inductive task := TDyn (i : nat) | TCost (i : nat) | TCon (i : nat) | TT (i : nat) | TMask.
Definition b1 := N. Definition b2 := b1 + (N + 1). Definition b3 := b2 + (N + 1). Definition b4 := b3 + N.
Definition decode (j : nat) : task :=
  if j <? b1 then TDyn j else if j <? b2 then TCost (j - b1) else if j <? b3 then TCon (j - b2)
  else if j <? b4 then TT (j - b3) else TMask.
Definition body (j : nat) : prog :=
  match decode j with TDyn i => adyn i | TCost i => acost i | TCon i => acon i | TT i => alias_T i | TMask => alias_mask end.
Ltac dec := unfold body, decode, b4, b3, b2, b1 in *;
  repeat match goal with |- context[?a <? ?b] => destruct (Nat.ltb_spec a b); try lia end;
  repeat match goal with H : context[?a <? ?b] |- _ => destruct (Nat.ltb_spec a b); try lia end.
Lemma body1 i : i < N -> body i = adyn i. Proof. intros; dec. reflexivity. Qed.
Lemma body2 i : i < N + 1 -> body (b1 + i) = acost i. Proof. intros; dec. f_equal; lia. Qed.
Lemma body3 i : i < N + 1 -> body (b2 + i) = acon i. Proof. intros; dec. f_equal; lia. Qed.
Lemma body4 i : i < N -> body (b3 + i) = alias_T i. Proof. intros; dec. f_equal; lia. Qed.
Lemma body5 i : body (b4 + i) = alias_mask. Proof. intros; dec. reflexivity. Qed.

Definition quad := (list nat * list nat * list nat * list nat)%type.
Definition enc (tc : nat * quad) : list nat :=
  match tc with (t, (c1, c2, c3, c4)) => c1 ++ map (Nat.add b1) c2 ++ map (Nat.add b2) c3 ++ [b4 + t] ++ map (Nat.add b3) c4 end.
Definition number (k : nat) (plan : list quad) : list (nat * quad) := combine (seq k (length plan)) plan.
Definition below (n : nat) (c : list nat) : Prop := forall i, In i c -> i < n.
Lemma map_body f b n c : below n c -> (forall i, i < n -> body (b + i) = f i) -> map body (map (Nat.add b) c) = map f c.
Proof. intros H E. rewrite map_map. apply map_ext_in. intros i Hi. apply E, H, Hi. Qed.
Lemma enc_thread t c1 c2 c3 c4 : below N c1 -> below (N + 1) c2 -> below (N + 1) c3 -> below N c4 ->
  chain (map body (enc (t, (c1, c2, c3, c4)))) = athread (c1, c2, c3, c4).
Proof.
  intros H1 H2 H3 H4. cbn [enc alias_thread]. rewrite !map_app, !chain_cat.
  rewrite (map_body acost b1 (N + 1) c2), (map_body acon b2 (N + 1) c3), (map_body alias_T b3 N c4); auto using body2, body3, body4.
  rewrite (map_ext_in body adyn c1) by (intros i Hi; apply body1, H1, Hi). cbn [map chain fold_right]. rewrite body5, and_ret. reflexivity.
Qed.
Lemma enc_perm plan : forall k, Permutation (concat (map enc (number k plan)))
  (concat (map (fun c => fst (fst (fst c))) plan) ++ map (Nat.add b1) (concat (map (fun c => snd (fst (fst c))) plan)) ++
   map (Nat.add b2) (concat (map (fun c => snd (fst c)) plan)) ++ map (Nat.add b3) (concat (map snd plan)) ++ map (Nat.add b4) (seq k (length plan))).
Proof.
  induction plan as [|[[[c1 c2] c3] c4] plan IH]; intros k; [constructor|].
  unfold number. cbn [length seq combine map concat enc fst snd]. fold (number (S k) plan). rewrite !map_app. rewrite (IH (S k)).
  set (x1 := concat _). set (x2 := map _ (concat _)). set (x3 := map _ (concat _)). set (x4 := map _ (concat _)). set (x5 := map _ (seq _ _)).
  generalize (map (Nat.add b1) c2), (map (Nat.add b2) c3), (map (Nat.add b3) c4), (b4 + k). clearbody x1 x2 x3 x4 x5. clear. intros d2 d3 d4 m.
  rewrite <- !app_assoc. apply Permutation_app_head.
  transitivity (x1 ++ d2 ++ d3 ++ (m :: d4) ++ x2 ++ x3 ++ x4 ++ x5).
  { transitivity ((d2 ++ d3 ++ [m] ++ d4) ++ x1 ++ x2 ++ x3 ++ x4 ++ x5); [rewrite <- !app_assoc; reflexivity|].
    rewrite Permutation_app_swap_app. rewrite <- !app_assoc. reflexivity. }
  apply Permutation_app_head, Permutation_app_head.
  transitivity (x2 ++ d3 ++ (m :: d4) ++ x3 ++ x4 ++ x5).
  { rewrite (Permutation_app_swap_app (m :: d4) x2). rewrite Permutation_app_swap_app. reflexivity. }
  apply Permutation_app_head, Permutation_app_head.
  rewrite Permutation_app_swap_app. apply Permutation_app_head. cbn [app].
  transitivity (d4 ++ m :: x4 ++ x5); [apply Permutation_middle|]. apply Permutation_app_head.
  apply Permutation_middle.
Qed.
Lemma seq_shift_add b n : map (Nat.add b) (seq 0 n) = seq b n.
Proof. rewrite <- (Nat.add_0_r b) at 2. generalize 0. induction n as [|n IH]; intros k; cbn; [reflexivity|]. f_equal. rewrite <- Nat.add_succ_r. apply IH. Qed.
Lemma enc_fair plan : alias_fair N plan -> fair_plan (b4 + length plan) (map enc (number 0 plan)).
Proof.
  intros (F1 & F2 & F3 & F4). unfold fair_plan in *. rewrite (enc_perm plan 0). rewrite F1, F2, F3, F4, !seq_shift_add.
  unfold b4, b3, b2, b1. rewrite !seq_app, <- !app_assoc. cbn [Nat.add]. reflexivity.
Qed.
Lemma fair_below n plan c : fair_plan n plan -> In c plan -> below n c.
Proof.
  intros F Hc i Hi. assert (In i (seq 0 n)) as H; [|apply in_seq in H; lia]. eapply Permutation_in; [exact F|]. apply in_concat. eauto.
Qed.
Lemma enc_threads plan : alias_fair N plan -> map athread plan = threads body (map enc (number 0 plan)).
Proof.
  intros (F1 & F2 & F3 & F4). unfold threads. rewrite map_map.
  assert (H : forall c, In c plan -> forall t, chain (map body (enc (t, c))) = athread c).
  { intros [[[c1 c2] c3] c4] Hc t. apply enc_thread.
    - eapply fair_below; [exact F1|]. apply in_map_iff. eexists; split; [|exact Hc]; reflexivity.
    - eapply fair_below; [exact F2|]. apply in_map_iff. eexists; split; [|exact Hc]; reflexivity.
    - eapply fair_below; [exact F3|]. apply in_map_iff. eexists; split; [|exact Hc]; reflexivity.
    - eapply fair_below; [exact F4|]. apply in_map_iff. eexists; split; [|exact Hc]; reflexivity. }
  clear F1 F2 F3 F4. unfold number. generalize 0. induction plan as [|c plan IH]; intros k; [reflexivity|].
  cbn [length seq combine map]. rewrite H by (left; reflexivity). f_equal. apply IH. intros d Hd; apply H; right; exact Hd.
Qed.

(** footprints *)
Section From.
Context (s0 : store).
Context (Hopt : cost_option integrated N s0).
Definition C (l : loc) : option val := match l with (A_opts Dyn 1, i, 0) => Some (s0 l) | _ => None end.
Definition U (l : loc) : option val := match l with (A_d_mask_ptr, 0, 0) => Some (P A_dmask 0) | _ => None end.
Definition R (j : nat) (l : loc) : Prop := match decode j with TT i => l = (A_Ts, i, 0) | _ => False end.
Definition W (j : nat) (l : loc) : Prop :=
  match decode j with
  | TDyn i => exists f, l = (A_ptr Dyn f, i, 0) | TCost i => exists f, l = (A_ptr Cost f, i, 0) | TCon i => exists f, l = (A_ptr Con f, i, 0)
  | TT i => l = (A_model Dyn mo_T, i, 0) | TMask => False
  end.
Lemma CU l : C l <> None -> U l = None.
Proof. destruct l as [[a i] k]. destruct a; cbn; congruence. Qed.
Lemma Hclean j : clean C U (R j) (W j).
Proof.
  intros l H. unfold W in H. destruct (decode j).
  - destruct H as [f ->]; split; reflexivity.
  - destruct H as [f ->]; split; reflexivity.
  - destruct H as [f ->]; split; reflexivity.
  - subst l; split; reflexivity.
  - destruct H.
Qed.
Lemma Hapart n i j : i < n -> j < n -> i <> j -> forall l, W i l -> ~ W j l /\ ~ R j l.
Proof.
  intros _ _ Ne l. assert (E : decode i = decode j -> decode i = TMask).
  { dec; intros E; try discriminate E; try reflexivity; injection E; lia. }
  unfold W, R. destruct (decode i) as [a|a|a|a|], (decode j) as [b|b|b|b|]; try tauto;
    try (intros [f ->]); try (intros ->); (split; [try (intros [g Q])|]; try (intros Q)); try discriminate Q; try tauto;
    try (injection Q as <- <-; discriminate (E eq_refl)); injection Q as <-; discriminate (E eq_refl).
Qed.
Lemma in_setp (R' W' K : loc -> Prop) m i f a j : W' (A_ptr m f, i, 0) -> within C U R' W' K (setp m i f a j).
Proof. intros H. cbn. auto. Qed.
Lemma in_ifp R' W' K (b : bool) p : within C U R' W' K p -> within C U R' W' K (when b p).
Proof. destruct b; cbn; auto. Qed.
Ltac sets := repeat first [apply in_and|apply in_ifp|apply in_setp; eexists; reflexivity].
Lemma Hwithin n j : j < n -> within C U (R j) (W j) none (body j).
Proof.
  intros _. unfold body, R, W. destruct (decode j) as [i|i|i|i|] eqn:E.
  - unfold alias_dyn. sets. cbn [within].
    change (within C U (fun _ : loc => False) (fun l => exists f, l = (A_ptr Dyn f, i, 0)) none
      (match s0 (A_opts Dyn 1, i, 0) with I 0 => Ret | I _ =>
        setp Dyn i p_cost_grad (A_mem Cost m_grad) i ;; setp Dyn i p_cost_fun (A_mem Cost m_fun) i ;;
        setp Dyn i p_y_ref (A_model Cost mo_y_ref) i ;; setp Dyn i p_W_chol (A_mem Cost m_W_chol) i ;;
        setp Dyn i p_W_chol_diag (A_mem Cost m_W_chol_diag) i ;; setp Dyn i p_outer_diag (A_mem Cost m_outer_diag) i ;;
        setp Dyn i p_cost_scaling (A_model Cost mo_scaling) i ;; setp Dyn i p_add_hess (A_opts Cost o_add_hess) i
        | _ => Err end)).
    assert (Hi : i < N) by (dec; congruence).
    destruct (Hopt i Hi) as (z & Hz & _). unfold o_cost_computation in Hz. rewrite Hz. destruct z; [exact Logic.I| |]; sets.
  - unfold alias_cost. sets.
  - unfold alias_con. sets.
  - cbn. split; [reflexivity|]. intros v. split; reflexivity.
  - cbn. auto.
Qed.

(** extra masks change nothing *)
Lemma masks n : forall k (s : store), s (A_d_mask_ptr, 0, 0) = P A_dmask 0 -> exists t, run loc_dec (chain (map (fun _ => alias_mask) (seq k n))) s = Some t /\ same t s.
Proof.
  induction n as [|n IH]; intros k s H; [exists s; split; [reflexivity|apply same_refl]|].
  cbn [seq map]. change (chain (alias_mask :: ?x)) with (alias_mask ;; chain x). rewrite andthen_run. cbn [alias_mask run].
  assert (Es : same (set loc_dec s (A_d_mask_ptr, 0, 0) (P A_dmask 0)) s).
  { intros l. unfold set. destruct (loc_dec l _) as [->|]; congruence. }
  destruct (IH (S k) (set loc_dec s (A_d_mask_ptr, 0, 0) (P A_dmask 0))) as (t & Ht & E); [rewrite Es; exact H|].
  exists t. split; [exact Ht|]. eapply same_trans; eauto.
Qed.
Lemma reference T : 0 < T -> exists t1 tT, run loc_dec (chain (map body (seq 0 (b4 + 1)))) s0 = Some t1 /\
  run loc_dec (chain (map body (seq 0 (b4 + T)))) s0 = Some tT /\ same tT t1.
Proof.
  intros HT. destruct T as [|T]; [lia|].
  destruct (chain_total loc_dec C U CU (b4 + 1) body R W (fun i _ => Hclean i) (Hwithin (b4 + 1)) (seq 0 (b4 + 1))) with (s := s0) as (t1 & H1 & _).
  { intros i Hi. apply in_seq in Hi. lia. }
  { intros [[a i] k] c E. unfold C in E. destruct a; try discriminate. destruct m; try discriminate. destruct k0 as [|[|]]; try discriminate. destruct k; try discriminate. congruence. }
  assert (M : t1 (A_d_mask_ptr, 0, 0) = P A_dmask 0).
  { rewrite seq_app, map_app, chain_app in H1. destruct (run loc_dec (chain (map body (seq 0 b4))) s0) as [u|]; [|discriminate].
    cbn [seq map chain fold_right Nat.add] in H1. rewrite <- (Nat.add_0_r b4), body5 in H1. cbn in H1. injection H1 as <-.
    unfold set. destruct (loc_dec _ _); congruence. }
  destruct (masks T 0 t1 M) as (tT & HT' & E). exists t1, tT. split; [exact H1|split; [|exact E]].
  replace (b4 + S T) with ((b4 + 1) + T) by lia. rewrite seq_app, map_app, chain_app, H1. cbn [Nat.add].
  replace (map body (seq (b4 + 1) T)) with (map (fun _ : nat => alias_mask) (seq 0 T)); [exact HT'|].
  rewrite <- (seq_shift_add (b4 + 1)), map_map. apply map_ext. intros x. symmetry. rewrite <- Nat.add_assoc. apply body5.
Qed.
Lemma Cs0 : holds C s0.
Proof. intros [[a i] k] c E. unfold C in E. destruct a; try discriminate. destruct m; try discriminate. destruct k0 as [|[|]]; try discriminate. destruct k; try discriminate. congruence. Qed.
Lemma plan1 : alias_fair N [(seq 0 N, seq 0 (N + 1), seq 0 (N + 1), seq 0 N)].
Proof. repeat split; unfold fair_plan; cbn; rewrite app_nil_r; reflexivity. Qed.
Lemma sequential_reference : exists t t1, run loc_dec aseq s0 = Some t /\ run loc_dec (chain (map body (seq 0 (b4 + 1)))) s0 = Some t1 /\ same t t1.
Proof.
  set (plan := [(seq 0 N, seq 0 (N + 1), seq 0 (N + 1), seq 0 N)]).
  pose proof (enc_fair plan plan1) as F. pose proof (enc_threads plan plan1) as E. change (length plan) with 1 in F.
  destruct (reference 1) as (t1 & _ & H1 & _); [lia|].
  destruct (chain_perm loc_dec C U CU (b4 + 1) body R W (fun i _ => Hclean i) (Hwithin (b4 + 1)) (fun i j A B => Hapart (b4 + 1) i j A B)
     (seq 0 (b4 + 1)) (concat (map enc (number 0 plan))) (Permutation_sym F) (seq_NoDup _ _)) with (s := s0) (u := t1) as (t & Ht & Es); auto using Cs0.
  { intros i Hi; apply in_seq in Hi; lia. }
  exists t, t1. split; [|split; [exact H1|exact Es]].
  cbn [plan number length seq combine map concat] in Ht. rewrite app_nil_r in Ht.
  pose proof (f_equal (fun l => hd Ret l) E) as E'. cbn [plan map threads number length seq combine hd] in E'. unfold alias_sequential. rewrite E'. exact Ht.
Qed.
Theorem alias_deterministic s' : aexec s0 s' -> exists t, run loc_dec aseq s0 = Some t /\ same s' t.
Proof.
  intros (plan & ps & Ne & F & St & En). rewrite (enc_threads plan F) in St. pose proof (enc_fair plan F) as F'.
  destruct (loop_deterministic loc_dec C U CU (b4 + length plan) body R W (fun i _ => Hclean i) (Hwithin _) (fun i j A B => Hapart _ i j A B) _ _ _ _ Cs0 F' St En) as (tT & HT & Es & _).
  destruct (reference (length plan)) as (t1 & tT' & H1 & HT' & E1); [destruct plan; [congruence|cbn; lia]|].
  destruct sequential_reference as (t & t1' & Ht & H1' & E2). exists t. split; [exact Ht|].
  assert (tT' = tT) by congruence. assert (t1' = t1) by congruence. subst.
  eapply same_trans; [exact Es|]. eapply same_trans; [exact E1|]. apply same_sym, E2.
Qed.
Theorem alias_no_stop plan ps s' : alias_fair N plan -> steps loc_dec (map athread plan, s0) (ps, s') ->
  ~ stuck ps /\ exists qs t, steps loc_dec (ps, s') (qs, t) /\ ended qs.
Proof.
  intros F St. rewrite (enc_threads plan F) in St. pose proof (enc_fair plan F) as F'. split.
  - exact (loop_safe loc_dec C U CU (b4 + length plan) body R W (fun i _ => Hclean i) (Hwithin _) (fun i j A B => Hapart _ i j A B) _ _ _ _ Cs0 F' St).
  - exact (loop_completes loc_dec C U CU (b4 + length plan) body R W (fun i _ => Hclean i) (Hwithin _) (fun i j A B => Hapart _ i j A B) _ _ _ _ Cs0 F' St).
Qed.
End From.

(** the pointers after the region *)
Fixpoint keeps (l : loc) (v : val) (p : prog) : Prop :=
  match p with Ret | Err => True | Read _ k => forall x, keeps l v (k x) | Write l' v' k => (l' = l -> v' = v) /\ keeps l v k end.
Lemma keeps_run l v p : keeps l v p -> forall s t, run loc_dec p s = Some t -> s l = v -> t l = v.
Proof.
  induction p as [|x k IH|x y k IH|]; cbn; intros H s t E Hs.
  - congruence.
  - eapply IH; eauto.
  - destruct H as [H1 H2]. eapply IH; eauto. unfold set. destruct (loc_dec l x); [symmetry in e; rewrite (H1 e); reflexivity|exact Hs].
  - discriminate.
Qed.
Lemma keeps_and l v p q : keeps l v p -> keeps l v q -> keeps l v (p ;; q).
Proof. induction p; cbn; auto. intros [] ?; auto. Qed.
Lemma keeps_chain l v (f : nat -> prog) c : (forall i, keeps l v (f i)) -> keeps l v (chain (map f c)).
Proof. intros H. induction c as [|x c IH]; [exact Logic.I|]. apply keeps_and; auto. Qed.

Definition keep_all (m : modl) (p : prog) : Prop := forall i f a j, leads m i f = Some (a, j) -> keeps (A_ptr m f, i, 0) (P a j) p.
Lemma keep_setp m m' i f a j : (m' = m -> leads m i f = Some (a, j) \/ leads m i f = None) -> keep_all m (setp m' i f a j).
Proof.
  intros H i' f' a' j' E. split; [|exact Logic.I]. intros Q. injection Q as <- <- <-. destruct (H eq_refl); congruence.
Qed.
Lemma keep_and m p q : keep_all m p -> keep_all m q -> keep_all m (p ;; q).
Proof. intros A B i f a j E. apply keeps_and; eauto. Qed.
Lemma keep_when m b p : keep_all m p -> keep_all m (when b p).
Proof. destruct b; cbn; auto. intros _ i f a j E. exact Logic.I. Qed.
Lemma keep_read m l k : (forall x, keep_all m (k x)) -> keep_all m (Read l k).
Proof. intros H i f a j E x. now apply H. Qed.
Lemma keep_none m p : p = Ret \/ p = Err -> keep_all m p.
Proof. intros [-> | ->] i f a j E; exact Logic.I. Qed.
Lemma keep_chain m (f : nat -> prog) c : (forall i, keep_all m (f i)) -> keep_all m (chain (map f c)).
Proof. intros H i g a j E. apply keeps_chain. intros k. now apply H. Qed.
Ltac ka := repeat first [apply keep_and | apply keep_when | apply keep_setp; intros Q; subst; try discriminate Q; cbn;
    first [left; reflexivity | right; reflexivity | match goal with |- context[if ?b then _ else _] => destruct b; auto end]].
Lemma keep_dyn m i : keep_all m (adyn i).
Proof.
  unfold alias_dyn. ka. apply keep_read. intros [x|z|b k]; try (apply keep_none; auto; fail). destruct z; [apply keep_none; auto| |]; ka.
Qed.
Lemma keep_cost m i : keep_all m (acost i). Proof. unfold alias_cost. ka. Qed.
Lemma keep_con m i : keep_all m (acon i). Proof. unfold alias_con. ka. Qed.
Lemma keep_mask m : keep_all m alias_mask.
Proof. intros i f a j E. split; [discriminate|exact Logic.I]. Qed.
Lemma keep_T m i : keep_all m (alias_T i).
Proof. intros i' f a j E x. split; [discriminate|exact Logic.I]. Qed.

Fixpoint avoids (l : loc) (p : prog) : Prop :=
  match p with Ret | Err => True | Read _ k => forall x, avoids l (k x) | Write l' _ k => l' <> l /\ avoids l k end.
Lemma avoids_run l p : avoids l p -> forall s t, run loc_dec p s = Some t -> t l = s l.
Proof.
  induction p as [|x k IH|x y k IH|]; cbn; intros H s t E.
  - congruence.
  - eapply IH; eauto.
  - destruct H as [A1 A2]. rewrite (IH A2 _ _ E). unfold set. destruct (loc_dec l x); congruence.
  - discriminate.
Qed.
Lemma avoids_and l p q : avoids l p -> avoids l q -> avoids l (p ;; q).
Proof. induction p; cbn; auto. intros [] ?; auto. Qed.
Lemma avoids_when l b p : avoids l p -> avoids l (when b p).
Proof. destruct b; cbn; auto. Qed.
Lemma avoids_dyn i j : avoids (A_opts Dyn o_cost_computation, j, 0) (adyn i).
Proof.
  unfold alias_dyn. repeat first [apply avoids_and|apply avoids_when|split; [discriminate|exact Logic.I]].
  intros [x|z|b k]; try exact Logic.I. destruct z; [exact Logic.I| |]; repeat first [apply avoids_and|split; [discriminate|exact Logic.I]].
Qed.
Lemma sets_chain (inv : store -> Prop) l v (f : nat -> prog) c i : In i c -> (forall k, keeps l v (f k)) ->
  (forall s t, inv s -> run loc_dec (f i) s = Some t -> t l = v) -> (forall k s t, inv s -> run loc_dec (f k) s = Some t -> inv t) ->
  forall s t, inv s -> run loc_dec (chain (map f c)) s = Some t -> t l = v.
Proof.
  intros Hi Hk Hs Hinv. induction c as [|x c IH]; [destruct Hi|]. intros s t I0 E. cbn [map] in E.
  change (chain (f x :: map f c)) with (f x ;; chain (map f c)) in E. rewrite andthen_run in E.
  destruct (run loc_dec (f x) s) as [u|] eqn:Eu; [|discriminate]. destruct Hi as [->|Hi].
  - eapply keeps_run; [apply keeps_chain, Hk|exact E|]. exact (Hs s u I0 Eu).
  - exact (IH Hi u t (Hinv x s u I0 Eu) E).
Qed.
Lemma set_eq (s : store) l v : set loc_dec s l v l = v.
Proof. unfold set. destruct (loc_dec l l); congruence. Qed.
Lemma set_ne (s : store) l v x : x <> l -> set loc_dec s l v x = s x.
Proof. unfold set. destruct (loc_dec x l); congruence. Qed.
Ltac getset := repeat first [rewrite set_eq|rewrite set_ne by discriminate]; try reflexivity.
Lemma dyn_sets i f a j (s t : store) : i < N -> cost_option integrated N s -> leads Dyn i f = Some (a, j) -> run loc_dec (adyn i) s = Some t -> t (A_ptr Dyn f, i, 0) = P a j.
Proof.
  intros Hi Ho El E. destruct (Ho i Hi) as (z & Hz & Iz). unfold alias_dyn in E. rewrite !andthen_run in E. cbn [setp run] in E.
  assert (Z0 : integrated i = true -> z <> 0%Z) by apply Iz.
  destruct f; cbn in El; try discriminate El; try (destruct (integrated i) eqn:Ei; [specialize (Z0 eq_refl)|discriminate El]);
    try (destruct sens_forw; [|discriminate El]); injection El as <- <-; cbn [when] in E;
  repeat match type of E with context[when ?b _] => destruct b; cbn [when run andthen setp] in E end;
  cbn [run] in E; repeat (rewrite set_ne in E by discriminate); rewrite Hz in E; destruct z; try congruence; cbn [run andthen setp] in E; injection E as <-; getset.
Qed.
Lemma cost_sets i f a j (s t : store) : leads Cost i f = Some (a, j) -> run loc_dec (acost i) s = Some t -> t (A_ptr Cost f, i, 0) = P a j.
Proof.
  intros El E. unfold alias_cost in E.
  destruct f; cbn in El; try discriminate El; try (destruct sens_forw; [|discriminate El]); injection El as <- <-; cbn [when] in E;
  repeat match type of E with context[when ?b _] => destruct b; cbn [when run andthen setp] in E end; cbn in E; injection E as <-; getset.
Qed.
Lemma con_sets i f a j (s t : store) : leads Con i f = Some (a, j) -> run loc_dec (acon i) s = Some t -> t (A_ptr Con f, i, 0) = P a j.
Proof.
  intros El E. unfold alias_con in E.
  destruct f; cbn in El; try discriminate El; try (destruct sens_forw; [|discriminate El]); injection El as <- <-; cbn [when] in E;
  repeat match type of E with context[when ?b _] => destruct b; cbn [when run andthen setp] in E end; cbn in E; injection E as <-; getset.
Qed.
Theorem alias_wires (s t : store) : cost_option integrated N s -> run loc_dec aseq s = Some t -> wired Out t.
Proof.
  intros Ho E m i f a j Hm El. unfold alias_sequential, alias_thread in E. rewrite !andthen_run in E.
  destruct (run loc_dec (chain (map adyn (seq 0 N))) s) as [s1|] eqn:E1; [|discriminate]. rewrite andthen_run in E.
  destruct (run loc_dec (chain (map acost (seq 0 (N + 1)))) s1) as [s2|] eqn:E2; [|discriminate]. rewrite andthen_run in E.
  destruct (run loc_dec (chain (map acon (seq 0 (N + 1)))) s2) as [s3|] eqn:E3; [|discriminate]. rewrite andthen_run in E.
  destruct (run loc_dec alias_mask s3) as [s4|] eqn:E4; [|discriminate].
  eapply keeps_run; [apply keeps_chain; intros k; apply keep_T; exact El|exact E|].
  eapply keeps_run; [apply keep_mask; exact El|exact E4|].
  destruct m; cbn in Hm.
  - eapply keeps_run; [apply keeps_chain; intros k; apply keep_con; exact El|exact E3|].
    eapply keeps_run; [apply keeps_chain; intros k; apply keep_cost; exact El|exact E2|].
    apply (sets_chain (cost_option integrated N) (A_ptr Dyn f, i, 0) (P a j) adyn (seq 0 N) i) with (s := s) (t := s1); auto.
    + apply in_seq; lia.
    + intros k; apply keep_dyn; exact El.
    + intros u v Hu Hv. eapply dyn_sets; eauto.
    + intros k u v Hu Hv i' Hi'. rewrite (avoids_run _ _ (avoids_dyn k i') _ _ Hv). now apply Hu.
  - eapply keeps_run; [apply keeps_chain; intros k; apply keep_con; exact El|exact E3|].
    apply (sets_chain (fun _ => True) (A_ptr Cost f, i, 0) (P a j) acost (seq 0 (N + 1)) i) with (s := s1) (t := s2); auto.
    + apply in_seq; lia.
    + intros k; apply keep_cost; exact El.
    + intros u v _ Hv. eapply cost_sets; eauto.
  - apply (sets_chain (fun _ => True) (A_ptr Con f, i, 0) (P a j) acon (seq 0 (N + 1)) i) with (s := s2) (t := s3); auto.
    + apply in_seq; lia.
    + intros k; apply keep_con; exact El.
    + intros u v _ Hv. eapply con_sets; eauto.
Qed.
End Alias.
