(** The memory of the OSQP interface after any number of calls. *)
From Coq Require Import ZArith List Bool Lia Reals Lra Arith.
From Verif Require Import Arith QpsModel CscModel RSum QpsSpec OsqpModel OsqpSpec CscProofs OsqpProofs OsqpRows OsqpKkt OsqpTop.
Import ListNotations.
Open Scope R_scope.

Lemma map_seq_ext {X} (f g : nat -> X) n : (forall i, (i < n)%nat -> f i = g i) -> map f (seq 0 n) = map g (seq 0 n).
Proof. intros H. apply map_ext_in. intros i I. apply in_seq in I. apply H. lia. Qed.
Lemma flat_seq_ext {X} (f g : nat -> list X) n : (forall i, (i < n)%nat -> f i = g i) -> flat_map f (seq 0 n) = flat_map g (seq 0 n).
Proof. intros H. rewrite !flat_map_concat_map. f_equal. apply map_seq_ext. exact H. Qed.

Section S.
Variable d : qdims.
Variables q q' : rqp.
Notation N := (qN d). Notation nx := (qnx d). Notation nu := (qnu d). Notation nb := (qnb d). Notation ng := (qng d). Notation ns := (qns d).
Hypothesis SM : same_maps d q q'.
Section K.
Variable k : nat.
Hypothesis Hk : (k <= N)%nat.
Lemma scan_same v f ii : (ii + f <= nb k)%nat -> scan q' k v ii f = scan q k v ii f.
Proof.
  revert ii. induction f as [|f IH]; intros ii Hf; [reflexivity|]. cbn [scan]. rewrite (proj1 (SM k Hk) ii) by lia. rewrite IH by lia. reflexivity.
Qed.
Lemma bound_same v : bound_of d q' k v = bound_of d q k v.
Proof. apply scan_same. lia. Qed.
Lemma soft_same i : (i < nb k + ng k)%nat -> soft q' k i = soft q k i.
Proof. intros H. unfold soft. rewrite (proj2 (SM k Hk) i) by exact H. reflexivity. Qed.
Lemma packed_same i : (i <= nb k + ng k)%nat -> packed q' k i = packed q k i.
Proof. intros H. unfold packed. apply nsum_ext. intros j Hj. rewrite soft_same by lia. reflexivity. Qed.
Lemma repl_same f : forall ii it, (ii + f <= ng k)%nat -> repl_rows d q' k ii it f = repl_rows d q k ii it f.
Proof.
  induction f as [|f IH]; intros ii it Hf; [reflexivity|]. cbn [repl_rows]. rewrite soft_same by lia. unfold nsb. rewrite packed_same by lia. rewrite !IH by lia. reflexivity.
Qed.
Lemma con_rows_same v : con_rows d q' k v = con_rows d q k v.
Proof.
  unfold con_rows. cbv zeta. rewrite bound_same, repl_same by lia. destruct (Nat.ltb_spec (bound_of d q k v) (nb k)); [|reflexivity].
  rewrite soft_same, packed_same by lia. reflexivity.
Qed.
Lemma up_same j f : forall ii it, (ii + f <= nb k + ng k)%nat -> up_rows d q' k j ii it f = up_rows d q k j ii it f.
Proof.
  induction f as [|f IH]; intros ii it Hf; [reflexivity|]. cbn [up_rows]. rewrite soft_same by lia. rewrite (proj2 (SM k Hk) ii) by (unfold nrow; lia). rewrite IH by lia. reflexivity.
Qed.
End K.
Lemma rows_same : con_cols_rows d q' = con_cols_rows d q.
Proof.
  unfold con_cols_rows, stages. apply flat_seq_ext. intros k Hk. assert (Hk' : (k <= N)%nat) by lia.
  apply f_equal2; [|apply f_equal2; [|apply f_equal2]]; apply map_seq_ext; intros j Hj.
  - unfold u_rows. rewrite con_rows_same by exact Hk'. reflexivity.
  - unfold x_rows. rewrite con_rows_same by exact Hk'. reflexivity.
  - unfold sl_rows. f_equal. apply flat_seq_ext. intros i Hi. rewrite (proj2 (SM k Hk') i) by exact Hi. reflexivity.
  - unfold su_rows. rewrite up_same by (try exact Hk'; lia). reflexivity.
Qed.
End S.

(** the structure of [cr] is in place *)
Definition laid (d : qdims) (cr : list (list nat)) (m : omem real) : Prop :=
  first_run m = false /\ (exists t, P_p m = ptrs 0 (hess_rows d) ++ t) /\ (exists t, P_i m = concat (hess_rows d) ++ t) /\
  (exists t, A_p m = ptrs 0 cr ++ t) /\ (exists t, A_i m = concat cr ++ t).
Lemma update_laid d q m : first_run m = true \/ laid d (con_cols_rows d q) m -> laid d (con_cols_rows d q) (update_memory d q m).
Proof.
  intros H. unfold laid, update_memory. cbv zeta. cbn [first_run P_p P_i A_p A_i]. split; [reflexivity|].
  destruct H as [->|(-> & H1 & H2 & H3 & H4)]; [|repeat split; assumption]. unfold over. repeat split; eexists; reflexivity.
Qed.
Lemma calls_laid d q qs : (forall q', In q' qs -> same_maps d q q') -> forall m, first_run m = true \/ laid d (con_cols_rows d q) m ->
  laid d (con_cols_rows d q) (calls d qs m) \/ calls d qs m = m.
Proof.
  induction qs as [|q' qs IH]; intros HS m H; [right; reflexivity|]. left. unfold calls. cbn [fold_left]. fold (calls d qs (update_memory d q' m)).
  assert (E : con_cols_rows d q' = con_cols_rows d q) by (apply rows_same; apply HS; left; reflexivity).
  assert (L : laid d (con_cols_rows d q) (update_memory d q' m)) by (rewrite <- E; apply update_laid; rewrite E; exact H).
  destruct (IH ltac:(intros q2 I; apply HS; right; exact I) (update_memory d q' m) (or_intror L)) as [G|G]; [exact G|rewrite G; exact L].
Qed.
Lemma calls_last d qs q m : calls d (qs ++ [q]) m = update_memory d q (calls d qs m).
Proof. unfold calls. rewrite fold_left_app. reflexivity. Qed.
Lemma calls_end d q qs m0 : first_run m0 = true -> (forall q', In q' qs -> same_maps d q q') -> laid d (con_cols_rows d q) (calls d (qs ++ [q]) m0).
Proof.
  intros F HS. rewrite calls_last. apply update_laid. destruct (calls_laid d q qs HS m0 (or_introl F)) as [G|G]; [right; exact G|left; rewrite G; exact F].
Qed.

Section R.
Variable d : qdims.
Variable q : rqp.
Notation N := (qN d). Notation nx := (qnx d). Notation nu := (qnu d). Notation nb := (qnb d). Notation ng := (qng d). Notation ns := (qns d).
Notation rdyn := (rdyn d). Notation rcon := (rcon d). Notation rrep := (rrep d q). Notation rslk := (rslk d). Notation width := (width d). Notation nrow := (nrow d).
Hypothesis WB : wf_bounds d q.
Hypothesis WS : wf_soft d q.
Hypothesis UM : unmasked d q.
Variable m0 : omem real.
Variable qs : list rqp.
Hypothesis F : first_run m0 = true.
Hypothesis HS : forall q', In q' qs -> same_maps d q q'.
Let m := calls d (qs ++ [q]) m0.
Let b := calls d qs m0.
Lemma m_P r c : (c < num_vars d)%nat -> cent (P_p m) (P_i m) (P_x m) r c = ldot (nth c (hess_rows d) []) (nth c (hess_vals d q) []) (unit_at r).
Proof.
  intros Hc. destruct (calls_end d q qs m0 F HS) as (_ & [t1 E1] & [t2 E2] & _). unfold m. rewrite E1, E2.
  rewrite calls_last. unfold update_memory. cbn [P_x]. unfold over. apply cent_col; [apply hess_same|rewrite hrows_len, hvals_len; reflexivity|rewrite hrows_len; exact Hc].
Qed.
Lemma m_A r c : (c < num_vars d)%nat -> cent (A_p m) (A_i m) (A_x m) r c = ldot (nth c (con_cols_rows d q) []) (nth c (con_cols_vals d q) []) (unit_at r).
Proof.
  intros Hc. destruct (calls_end d q qs m0 F HS) as (_ & _ & _ & [t1 E1] & [t2 E2]). unfold m. rewrite E1, E2.
  rewrite calls_last. unfold update_memory. cbn [A_x]. unfold over. apply cent_col; [apply cols_same|rewrite rows_len, vals_len; reflexivity|rewrite rows_len; exact Hc].
Qed.
Lemma m_g k t : (k <= N)%nat -> (t < width k)%nat -> nth (hess_off d k + t) (lin_q m) 0 = q_rqz q k t.
Proof.
  intros Hk Ht. unfold m. rewrite calls_last. unfold update_memory. cbn [lin_q]. unfold over. rewrite app_nth1 by (rewrite grad_len; apply var_lt; assumption). apply grad_nth; assumption.
Qed.
Lemma m_l : lb m = store (lb b) (stores_l d q).
Proof. unfold m, b. rewrite calls_last. reflexivity. Qed.
Lemma m_u : ub m = store (ub b) (stores_u d q).
Proof. unfold m, b. rewrite calls_last. reflexivity. Qed.

Lemma fill_ux z y out k t : (k <= N)%nat -> (t < width k)%nat -> s_ux (fill_in_qp_out d q z y out) k t = stg d z k t.
Proof.
  intros Hk Ht. unfold fill_in_qp_out. cbn [s_ux]. destruct (Nat.leb_spec k N); [|lia]. unfold vset. destruct (Nat.ltb_spec t (nx k + nu k + 2 * ns k)) as [_|C]; [reflexivity|]. exfalso. unfold OsqpProofs.width in Ht. lia.
Qed.
Lemma fill_pi z y out k i : (k < N)%nat -> (i < nx (S k))%nat -> s_pi (fill_in_qp_out d q z y out) k i = y (rdyn k i).
Proof. intros Hk Hi. unfold fill_in_qp_out. cbn [s_pi]. destruct (Nat.ltb_spec k N); [|lia]. unfold vset. destruct (Nat.ltb_spec i (nx (S k))); [reflexivity|lia]. Qed.
Lemma fill_l z y out k : (k <= N)%nat -> s_lam (fill_in_qp_out d q z y out) k = fill_lam d q y k (s_lam out k).
Proof. intros Hk. unfold fill_in_qp_out. cbn [s_lam]. destruct (Nat.leb_spec k N); [reflexivity|lia]. Qed.

Lemma run_forward z y out : mem_kkt d m z y -> kkt d q (fill_in_qp_out d q z y out).
Proof.
  intros K. unfold mem_kkt in K.
  refine (forward d q WB WS UM _ _ _ _ _ m_P m_A m_g _ _ m_l m_u z y _ _ _ _ _ _ _ K).
  - intros k t Hk Ht. apply fill_ux; assumption.
  - intros k i Hk Hi. apply fill_pi; assumption.
  - intros k i Hk Hi S. rewrite fill_l by assumption. rewrite (lam_up d q WS), (lam_low d q WS), S by assumption. destruct (Rle_dec (y (rcon k i)) 0); lra.
  - intros k i Hk Hi S. rewrite fill_l by assumption. rewrite (lam_up d q WS), (lam_low d q WS), S by assumption. split; reflexivity.
  - intros k e Hk He. rewrite fill_l by assumption. apply lam_slk; assumption.
  - intros k i Hk Hi S. rewrite fill_l by assumption. rewrite (lam_up d q WS), (lam_low d q WS), S by assumption. destruct (Rle_dec (y (rcon k i)) 0); [left|right]; lra.
Qed.

(** a point and multipliers of the assembled QP from those of the OCP QP *)
Definition zlist (s : rsol) : list (nat * R) := stages d (fun k => map (fun t => (hess_off d k + t, s_ux s k t)%nat) (seq 0 (width k))).
Definition ylist (s : rsol) : list (nat * R) :=
  stages_dyn d (fun k => map (fun i => (rdyn k i, s_pi s k i)) (seq 0 (nx (S k)))) ++
  stages d (fun k => map (fun i => (rcon k i, if soft q k i then - s_lam s k i else s_lam s k (nrow k + i)%nat - s_lam s k i)) (seq 0 (nrow k))) ++
  stages d (fun k => flat_map (fun i => if soft q k i then [(rrep k i, s_lam s k (nrow k + i)%nat)] else []) (seq 0 (nrow k))) ++
  stages d (fun k => map (fun e => (rslk k e, - s_lam s k (2 * nrow k + e)%nat)) (seq 0 (2 * ns k))).
Lemma z_at s k t : (k <= N)%nat -> (t < width k)%nat -> store (fun _ => 0) (zlist s) (hess_off d k + t)%nat = s_ux s k t.
Proof.
  intros Hk Ht. apply store_in.
  - apply in_stages. exists k. split; [exact Hk|]. apply in_ms. exists t. split; [exact Ht|reflexivity].
  - intros v I. apply in_stages in I. destruct I as (k' & Hk' & I). apply in_ms in I. destruct I as (t' & Ht' & E). injection E as E ->.
    destruct (nsum_inj (fun k => nx k + nu k + 2 * ns k)%nat k t k' t' ltac:(cbv beta; unfold OsqpProofs.width in Ht; lia) ltac:(cbv beta; unfold OsqpProofs.width in Ht'; lia) E) as [-> ->]. reflexivity.
Qed.
Lemma in_y s r v : In (r, v) (ylist s) <-> assigns d q (fun k i => s_pi s k i) (fun k i => if soft q k i then - s_lam s k i else s_lam s k (nrow k + i)%nat - s_lam s k i)
  (fun k i => s_lam s k (nrow k + i)%nat) (fun k e => - s_lam s k (2 * nrow k + e)%nat) r v.
Proof.
  unfold ylist, assigns. rewrite !in_app_iff, !in_stages, in_stages_dyn. split.
  - intros [(k & Hk & I)|[(k & Hk & I)|[(k & Hk & I)|(k & Hk & I)]]].
    + left. apply in_ms in I. destruct I as (i & Hi & E). injection E as -> ->. exists k, i. repeat split; assumption.
    + right; left. apply in_ms in I. destruct I as (i & Hi & E). injection E as -> ->. exists k, i. repeat split; assumption.
    + right; right; left. apply in_cond in I. destruct I as (i & Hi & S & E). injection E as -> ->. exists k, i. repeat split; assumption.
    + right; right; right. apply in_ms in I. destruct I as (i & Hi & E). injection E as -> ->. exists k, i. repeat split; assumption.
  - intros [(k & i & Hk & Hi & -> & ->)|[(k & i & Hk & Hi & -> & ->)|[(k & i & Hk & Hi & S & -> & ->)|(k & e & Hk & He & -> & ->)]]].
    + left. exists k. split; [exact Hk|]. apply in_ms. exists i. split; [exact Hi|reflexivity].
    + right; left. exists k. split; [exact Hk|]. apply in_ms. exists i. split; [exact Hi|reflexivity].
    + right; right; left. exists k. split; [exact Hk|]. apply in_flat_map. exists i. split; [apply in_seq; lia|]. rewrite S. left. reflexivity.
    + right; right; right. exists k. split; [exact Hk|]. apply in_ms. exists e. split; [exact He|reflexivity].
Qed.
Lemma run_backward s : kkt d q s -> exists z y, mem_kkt d m z y /\
  forall out k t, (k <= N)%nat -> (t < nv d k + 2 * ns k)%nat -> s_ux (fill_in_qp_out d q z y out) k t = s_ux s k t.
Proof.
  intros K. exists (store (fun _ => 0) (zlist s)), (store (fun _ => 0) (ylist s)).
  assert (Ax : forall k t, (k <= N)%nat -> (t < width k)%nat -> s_ux s k t = stg d (store (fun _ => 0) (zlist s)) k t) by (intros k t Hk Ht; symmetry; apply z_at; assumption).
  split.
  - unfold mem_kkt. refine (backward d q WB WS UM _ _ _ _ _ m_P m_A m_g _ _ m_l m_u _ _ s Ax _ _ _ _ K).
    + intros k i Hk Hi. symmetry. exact (at_dyn d q _ _ _ _ _ (in_y s) _ k i Hk Hi).
    + intros k i Hk Hi S. symmetry. rewrite (at_con d q WS _ _ _ _ _ (in_y s) _ k i Hk Hi), S. reflexivity.
    + intros k i Hk Hi S. rewrite (at_con d q WS _ _ _ _ _ (in_y s) _ k i Hk Hi), (at_rep d q WS _ _ _ _ _ (in_y s) _ k i Hk Hi S), S. split; [lra|reflexivity].
    + intros k e Hk He. rewrite (at_slk d q WS _ _ _ _ _ (in_y s) _ k e Hk He). lra.
  - intros out k t Hk Ht. assert (Hw : (t < width k)%nat) by (unfold OsqpProofs.width; unfold nv in Ht; lia). rewrite fill_ux by assumption. symmetry. apply Ax; assumption.
Qed.
End R.
(** masks are never read *)
Lemma run_masks d q qs m0 z y out : wf_bounds d q -> wf_soft d q -> first_run m0 = true -> (forall q', In q' qs -> same_maps d q q') ->
  mem_kkt d (calls d (qs ++ [q]) m0) z y -> kkt d (all_rows q) (fill_in_qp_out d q z y out).
Proof.
  intros WB WS F HS K. change (fill_in_qp_out d q z y out) with (fill_in_qp_out d (all_rows q) z y out).
  apply (run_forward d (all_rows q) WB WS ltac:(intros ? ? _ _; cbn; lra) m0 qs F HS). rewrite calls_last in K |- *. exact K.
Qed.
