(** Arithmetic of compressed columns. *)
From Coq Require Import ZArith List Bool Lia Reals Lra Arith.
From Verif Require Import Arith QpsModel CscModel RSum QpsSpec OsqpModel OsqpSpec.
Import ListNotations.
Open Scope R_scope.

Lemma nsum_mono f a b : (a <= b)%nat -> (nsum a f <= nsum b f)%nat.
Proof. induction b as [|b IH]; intros H; [replace a with 0%nat by lia; lia|]. destruct (Nat.eq_dec a (S b)) as [->|]; [lia|]. cbn. specialize (IH ltac:(lia)). lia. Qed.
Lemma nsum_block f n k i : (k < n)%nat -> (i < f k)%nat -> (nsum k f + i < nsum n f)%nat.
Proof. intros Hk Hi. pose proof (nsum_mono f (S k) n Hk). cbn in H. lia. Qed.
Lemma nsum_inj f k i k' i' : (i < f k)%nat -> (i' < f k')%nat -> (nsum k f + i = nsum k' f + i')%nat -> k = k' /\ i = i'.
Proof.
  intros H H' E. destruct (lt_eq_lt_dec k k') as [[L|L]|L].
  - pose proof (nsum_block f k' k i L H). lia.
  - subst. split; [reflexivity|lia].
  - pose proof (nsum_block f k k' i' L H'). lia.
Qed.
Lemma nsum_find f n r : (r < nsum n f)%nat -> exists k i, (k < n)%nat /\ (i < f k)%nat /\ r = (nsum k f + i)%nat.
Proof.
  induction n as [|n IH]; cbn; intros H; [lia|]. destruct (lt_dec r (nsum n f)) as [L|L].
  - destruct (IH L) as (k & i & A & B & C). exists k, i. repeat split; [lia|assumption|assumption].
  - exists n, (r - nsum n f)%nat. repeat split; lia.
Qed.
Lemma nsum_ext f g n : (forall k, (k < n)%nat -> f k = g k) -> nsum n f = nsum n g.
Proof. induction n as [|n IH]; intros H; cbn; [reflexivity|]. rewrite IH, H by (intros; try apply H; lia). reflexivity. Qed.
Lemma nsum_le f g n : (forall k, (k < n)%nat -> (f k <= g k)%nat) -> (nsum n f <= nsum n g)%nat.
Proof. induction n as [|n IH]; intros H; cbn; [lia|]. specialize (IH ltac:(intros; apply H; lia)). specialize (H n ltac:(lia)). lia. Qed.
Lemma nsum_plus f g n : nsum n (fun k => f k + g k)%nat = (nsum n f + nsum n g)%nat.
Proof. induction n as [|n IH]; cbn; [reflexivity|]. rewrite IH. lia. Qed.
(** a sum over all variables is a sum over stages *)
Lemma sum_stages f n (g : nat -> R) : sum (nsum n f) g = sum n (fun k => sum (f k) (fun t => g (nsum k f + t)%nat)).
Proof. induction n as [|n IH]; cbn; [reflexivity|]. rewrite sum_split, IH. reflexivity. Qed.

(** lists built by a loop over stages *)
Section L.
Context {X : Type}.
Lemma flat_len (f : nat -> list X) (w : nat -> nat) n : (forall k, (k < n)%nat -> length (f k) = w k) -> length (flat_map f (seq 0 n)) = nsum n w.
Proof.
  induction n as [|n IH]; intros H; [reflexivity|]. rewrite seq_S, flat_map_app, app_length, IH by (intros; apply H; lia).
  cbn. rewrite app_nil_r, H by lia. reflexivity.
Qed.
Lemma flat_nth (f : nat -> list X) (w : nat -> nat) n dflt k t : (forall k, (k < n)%nat -> length (f k) = w k) -> (k < n)%nat -> (t < w k)%nat ->
  nth (nsum k w + t) (flat_map f (seq 0 n)) dflt = nth t (f k) dflt.
Proof.
  intros H Hk Ht. induction n as [|n IH]; [lia|]. rewrite seq_S, flat_map_app. cbn [flat_map app Nat.add]. rewrite app_nil_r.
  assert (L : length (flat_map f (seq 0 n)) = nsum n w) by (apply flat_len; intros; apply H; lia).
  destruct (Nat.eq_dec k n) as [->|].
  - rewrite app_nth2; rewrite L; [|lia]. f_equal. lia.
  - rewrite app_nth1; [|rewrite L; apply nsum_block; lia]. apply IH; [intros; apply H; lia|lia].
Qed.
End L.

(** column pointers *)
Lemma ptrs_len {X} (cols : list (list X)) n : length (ptrs n cols) = S (length cols).
Proof. revert n; induction cols as [|c r IH]; intros n; cbn; [reflexivity|]. rewrite IH. reflexivity. Qed.
Lemma ptrs_nth {X} (cols : list (list X)) n c : (c <= length cols)%nat -> nth c (ptrs n cols) 0%nat = (n + length (concat (firstn c cols)))%nat.
Proof.
  revert n c; induction cols as [|x r IH]; intros n c H.
  - destruct c; [cbn; lia|cbn in H; lia].
  - destruct c; [cbn; lia|]. cbn [ptrs nth firstn concat]. rewrite IH by (cbn in H; lia). rewrite app_length. lia.
Qed.
Lemma ptrs_step {X} (cols : list (list X)) n c : (c < length cols)%nat -> nth (S c) (ptrs n cols) 0%nat = (nth c (ptrs n cols) 0 + length (nth c cols []))%nat.
Proof.
  revert n c; induction cols as [|x r IH]; intros n c H; [cbn in H; lia|]. destruct c.
  - cbn. destruct r; reflexivity.
  - cbn [ptrs nth]. cbn in H. rewrite <- (IH (n + length x)%nat c) by lia. reflexivity.
Qed.
Lemma concat_nth {X} (cols : list (list X)) c e dflt : (c < length cols)%nat -> (e < length (nth c cols []))%nat ->
  nth (length (concat (firstn c cols)) + e) (concat cols) dflt = nth e (nth c cols []) dflt /\ (length (concat (firstn c cols)) + e < length (concat cols))%nat.
Proof.
  revert c; induction cols as [|x r IH]; intros c H He; [cbn in H; lia|]. destruct c.
  - cbn in *. rewrite app_nth1, app_length by assumption. split; [reflexivity|lia].
  - cbn [firstn concat nth] in *. destruct (IH c ltac:(cbn in H; lia) He) as [E L]. rewrite !app_length.
    rewrite app_nth2 by lia. rewrite <- E. split; [f_equal; lia|lia].
Qed.

(** the entry of a column given by its list of rows and values *)
Fixpoint ldot (rs : list nat) (vs : list R) (w : nat -> R) : R :=
  match rs, vs with r :: rs', v :: vs' => v * w r + ldot rs' vs' w | _, _ => 0 end.
Definition unit_at (r : nat) : nat -> R := fun i => if (i =? r)%nat then 1 else 0.
Lemma ldot_sum rs vs w : length rs = length vs -> ldot rs vs w = sum (length rs) (fun e => nth e vs 0 * w (nth e rs 0%nat)).
Proof.
  revert vs; induction rs as [|r rs IH]; intros [|v vs] H; try discriminate; [reflexivity|]. cbn in H. cbn [ldot length].
  rewrite IH by lia. replace (S (length rs)) with (1 + length rs)%nat by lia. rewrite sum_split. cbn. lra.
Qed.
Lemma ldot_ext rs vs w w' : (forall r, In r rs -> w r = w' r) -> ldot rs vs w = ldot rs vs w'.
Proof.
  revert vs; induction rs as [|r rs IH]; intros [|v vs] H; try reflexivity. cbn. rewrite (H r) by (left; reflexivity). rewrite (IH vs) by (intros; apply H; right; assumption). reflexivity.
Qed.
Lemma ldot_app rs1 vs1 rs2 vs2 w : length rs1 = length vs1 -> ldot (rs1 ++ rs2) (vs1 ++ vs2) w = ldot rs1 vs1 w + ldot rs2 vs2 w.
Proof. revert vs1; induction rs1 as [|r rs IH]; intros [|v vs] H; try discriminate; cbn; [lra|]. cbn in H. rewrite IH by lia. lra. Qed.
Lemma ldot_map n (f : nat -> nat) (g : nat -> R) w : ldot (map f (seq 0 n)) (map g (seq 0 n)) w = sum n (fun i => g i * w (f i)).
Proof.
  induction n as [|n IH]; [reflexivity|]. rewrite seq_S, !map_app, ldot_app by (rewrite !map_length; reflexivity). rewrite IH. cbn. lra.
Qed.
(** lists built by a loop with a condition *)
Lemma ldot_cond n (p : nat -> bool) (f : nat -> nat) (g : nat -> R) w :
  ldot (flat_map (fun i => if p i then [f i] else []) (seq 0 n)) (flat_map (fun i => if p i then [g i] else []) (seq 0 n)) w
  = sum n (fun i => if p i then g i * w (f i) else 0).
Proof.
  induction n as [|n IH]; [reflexivity|]. rewrite seq_S, !flat_map_app, ldot_app.
  - rewrite IH. cbn. destruct (p n); cbn; lra.
  - clear IH. generalize (seq 0 n). induction l as [|a l IH]; [reflexivity|]. cbn. rewrite !app_length, IH. destruct (p a); reflexivity.
Qed.
Lemma sum_unit m w r : (r < m)%nat -> sum m (fun i => unit_at r i * w i) = w r.
Proof.
  intros H. rewrite (sum_one m r); [|exact H|intros k _ N; unfold unit_at; destruct (Nat.eqb_spec k r); [contradiction|lra]].
  unfold unit_at. rewrite Nat.eqb_refl. lra.
Qed.
(** weighting the rows of a column *)
Lemma ldot_rows m rs vs (y : nat -> R) : (forall r, In r rs -> (r < m)%nat) -> sum m (fun r => ldot rs vs (unit_at r) * y r) = ldot rs vs y.
Proof.
  revert vs; induction rs as [|r rs IH]; intros [|v vs] H; [cbn; apply sum_zero; intros; lra..|].
  cbn. rewrite <- (IH vs) by (intros; apply H; right; assumption). rewrite (sum_ext m _ (fun k => v * (unit_at r k * y k) + ldot rs vs (unit_at k) * y k)).
  2:{ intros k _. unfold unit_at. rewrite (Nat.eqb_sym r k). lra. }
  rewrite sum_plus, sum_scal, sum_unit by (apply H; left; reflexivity). reflexivity.
Qed.
Lemma cent_col cr cv t1 t2 t3 r c : (forall e, length (nth e cr []) = length (nth e cv [])) -> length cr = length cv -> (c < length cr)%nat ->
  cent (ptrs 0 cr ++ t1) (concat cr ++ t2) (concat cv ++ t3) r c = ldot (nth c cr []) (nth c cv []) (unit_at r).
Proof.
  intros Hl Hn Hc. unfold cent. cbv zeta.
  rewrite !app_nth1 by (rewrite ptrs_len; lia). rewrite ptrs_step by exact Hc.
  rewrite (ptrs_nth cr 0 c) by lia. rewrite ldot_sum by apply Hl.
  replace (0 + length (concat (firstn c cr)) + length (nth c cr []) - (0 + length (concat (firstn c cr))))%nat with (length (nth c cr [])) by lia.
  assert (F : length (concat (firstn c cr)) = length (concat (firstn c cv))).
  { clear Hc. revert cv Hl Hn. revert c. induction cr as [|a cr IH]; intros c [|b cv] Hl Hn; try discriminate; [destruct c; reflexivity|].
    destruct c; [reflexivity|]. cbn. rewrite !app_length. rewrite (IH c cv); [pose proof (Hl 0%nat) as E; cbn in E; lia|intros e; apply (Hl (S e))|cbn in Hn; lia]. }
  apply sum_ext. intros e He. destruct (concat_nth cr c e 0%nat Hc He) as [E1 L1]. destruct (concat_nth cv c e 0 ltac:(lia) ltac:(rewrite <- Hl; exact He)) as [E2 L2].
  cbn [Nat.add]. rewrite (app_nth1 (concat cr)) by exact L1. rewrite F. rewrite (app_nth1 (concat cv)) by exact L2. rewrite <- F, E1, F, E2.
  unfold unit_at. destruct (nth e (nth c cr []) 0 =? r)%nat; lra.
Qed.

(** stores *)
Lemma store_app {X} (a : nat -> X) w1 w2 : store a (w1 ++ w2) = store (store a w1) w2.
Proof. unfold store. apply fold_left_app. Qed.
Lemma store_out {X} (a : nat -> X) w i : (forall v, ~ In (i, v) w) -> store a w i = a i.
Proof.
  revert a; induction w as [|[j x] w IH]; intros a H; [reflexivity|]. cbn. fold (store (fun i0 => if (i0 =? j)%nat then x else a i0) w).
  change (store (fun i0 => if (i0 =? j)%nat then x else a i0) w i = a i). rewrite IH by (intros v Hv; apply (H v); right; exact Hv).
  destruct (Nat.eqb_spec i j) as [->|]; [exfalso; apply (H x); left; reflexivity|reflexivity].
Qed.
Lemma store_in {X} (a : nat -> X) w i x : In (i, x) w -> (forall v, In (i, v) w -> v = x) -> store a w i = x.
Proof.
  revert a; induction w as [|[j v] w IH]; intros a Hin Hu; [contradiction|].
  change (store (fun i0 => if (i0 =? j)%nat then v else a i0) w i = x).
  destruct (in_dec Nat.eq_dec i (map fst w)) as [I|I].
  - apply in_map_iff in I. destruct I as [[i' x'] [E I]]. cbn in E. subst i'. pose proof (Hu x' (or_intror I)). subst x'.
    apply IH; [exact I|]. intros v' Hv'. apply Hu. right. exact Hv'.
  - rewrite store_out. 2:{ intros v' Hv'. apply I. apply in_map_iff. exists (i, v'). split; [reflexivity|exact Hv']. }
    destruct Hin as [E|Hin]; [|exfalso; apply I; apply in_map_iff; exists (i, x); split; [reflexivity|exact Hin]].
    injection E as -> ->. rewrite Nat.eqb_refl. reflexivity.
Qed.
