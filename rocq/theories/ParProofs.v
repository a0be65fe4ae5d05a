(** Threads that keep to separate cells: every interleaving ends with the memory of the sequential loop. *)
From Coq Require Import List Permutation Relations Lia Arith.
From Verif Require Import Par.
Import ListNotations.

Section P.
Context {L V : Type} (dec : forall a b : L, {a = b} + {a <> b}).
Notation prog := (prog L V). Notation store := (store L V).
Notation run := (@Par.run L V dec). Notation set := (@Par.set L V dec). Notation step := (@Par.step L V dec). Notation steps := (@Par.steps L V dec).
Infix "==" := (@same L V) (at level 70).

(** what a program may touch: it reads constants [C] and cells of [R]; it writes cells of [W].  Into the cells that
    all threads share it writes only the values [U] prescribes, and it reads them only after it wrote them: [K] are
    the shared cells it wrote so far *)
Definition add (K : L -> Prop) (l : L) : L -> Prop := fun x => x = l \/ K x.
Fixpoint within (C U : L -> option V) (R W : L -> Prop) (K : L -> Prop) (p : prog) : Prop :=
  match p with
  | Ret => True
  | Err => False
  | Read l k =>
    match C l, U l with
    | Some c, _ => within C U R W K (k c)
    | None, Some u => K l /\ within C U R W K (k u)
    | None, None => R l /\ forall v, within C U R W K (k v)
    end
  | Write l v k =>
    match U l with
    | Some u => v = u /\ within C U R W (add K l) k
    | None => W l /\ within C U R W K k
    end
  end.
Definition none : L -> Prop := fun _ => False.

Definition holds (C : L -> option V) (s : store) : Prop := forall l c, C l = Some c -> s l = c.

Lemma same_refl (s : store) : s == s. Proof. intros l; reflexivity. Qed.
Lemma same_sym (s t : store) : s == t -> t == s. Proof. intros H l; symmetry; apply H. Qed.
Lemma same_trans (s t u : store) : s == t -> t == u -> s == u. Proof. intros H K l; rewrite H; apply K. Qed.
Lemma set_same (s t : store) l v : s == t -> set s l v == set t l v.
Proof. intros H x; unfold Par.set; destruct (dec x l); [reflexivity|apply H]. Qed.

Lemma run_ext p : forall s t s', s == t -> run p s = Some s' -> exists t', run p t = Some t' /\ s' == t'.
Proof.
  induction p as [|l k IH|l v k IH|]; intros s t s' E H; cbn in *.
  - injection H as <-; exists t; auto.
  - rewrite <- (E l); eapply IH; eauto.
  - eapply IH; [|exact H]. now apply set_same.
  - discriminate.
Qed.

Lemma andthen_run p q : forall s, run (andthen p q) s = match run p s with Some t => run q t | None => None end.
Proof. induction p as [|l k IH|l v k IH|]; intros s; cbn; auto. Qed.
Lemma andthen_assoc_run p q r s : run (andthen (andthen p q) r) s = run (andthen p (andthen q r)) s.
Proof. rewrite !andthen_run. destruct (run p s); [|reflexivity]. rewrite andthen_run. reflexivity. Qed.
Lemma chain_app ps qs : forall s, run (chain (ps ++ qs)) s = match run (chain ps) s with Some t => run (chain qs) t | None => None end.
Proof.
  induction ps as [|p ps IH]; intros s; cbn; [reflexivity|].
  change (fold_right andthen Ret (ps ++ qs)) with (chain (ps ++ qs)).
  change (fold_right andthen Ret ps) with (chain ps).
  rewrite !andthen_run. destruct (run p s); [apply IH|reflexivity].
Qed.

Lemma f2_length {A B} (P : A -> B -> Prop) l m : Forall2 P l m -> length l = length m.
Proof. induction 1; cbn; congruence. Qed.

Section Ctx.
Context (C U : L -> option V).
Context (CU : forall l, C l <> None -> U l = None).
Implicit Types (R W K : L -> Prop).
Notation within := (within C U).

(** the shared cells a thread wrote hold their value *)
Definition knows (K : L -> Prop) (s : store) : Prop := forall l u, K l -> U l = Some u -> s l = u.

Lemma within_mono R W R' W' p : (forall l, R l -> R' l) -> (forall l, W l -> W' l) -> forall K K', (forall l, K l -> K' l) -> within R W K p -> within R' W' K' p.
Proof.
  intros HR HW. induction p as [|l k IH|l v k IH|]; intros K K' HK; cbn; auto.
  - destruct (C l); [apply IH; auto|]. destruct (U l); intros [H1 H2]; split; eauto.
  - destruct (U l); intros [H1 H2]; split; auto; (eapply IH; [|exact H2]); auto.
    intros x [->|H]; [left; reflexivity|right; auto].
Qed.
Lemma within_andR R W p q : forall K, within R W K p -> within R W K q -> within R W K (andthen p q).
Proof.
  induction p as [|l k IH|l v k IH|]; intros K Hp Hq; cbn in *.
  - exact Hq.
  - destruct (C l); [apply IH; auto|]. destruct (U l); destruct Hp; split; auto.
  - destruct (U l); destruct Hp; split; auto. apply IH; auto. eapply within_mono; [| | |exact Hq]; auto. intros x Hx; right; exact Hx.
  - destruct Hp.
Qed.
Lemma within_chain R W ps : Forall (within R W none) ps -> within R W none (chain ps).
Proof. induction 1 as [|p ps Hp Hps IH]; cbn; [exact I|]. apply within_andR; assumption. Qed.

(** constants stay as they are: [W] must not meet [C] *)
Definition clean (R W : L -> Prop) : Prop := forall l, W l -> C l = None /\ U l = None.

Lemma set_holds s l v : C l = None -> holds C s -> holds C (set s l v).
Proof. intros E H x c X. unfold Par.set. destruct (dec x l) as [->|]; [congruence|auto]. Qed.
Lemma set_knows K s l v : U l = Some v \/ U l = None -> knows K s -> knows K (set s l v).
Proof. intros E H x u X Y. unfold Par.set. destruct (dec x l) as [->|]; [destruct E; congruence|eauto]. Qed.
Lemma write_c R W K l v k : clean R W -> within R W K (Write l v k) -> C l = None /\ (U l = Some v \/ (U l = None /\ W l)).
Proof.
  intros Hw H. cbn in H. destruct (U l) eqn:EU.
  - destruct H as [-> _]. split; auto. destruct (C l) eqn:E; [|reflexivity]. rewrite (CU l) in EU; congruence.
  - destruct H as [H _]. destruct (Hw l H); auto.
Qed.
Lemma write_u R W K l v k : clean R W -> within R W K (Write l v k) -> U l = Some v \/ U l = None.
Proof. intros Hc H. destruct (write_c _ _ _ _ _ _ Hc H) as [_ [?|[? _]]]; auto. Qed.
Lemma write_k R W K l v k s : within R W K (Write l v k) -> knows K s -> exists K', knows K' (set s l v) /\ within R W K' k.
Proof.
  cbn. destruct (U l) as [u|] eqn:E; intros [H1 H2] Hk.
  - exists (add K l). split; [|exact H2]. intros x w [->|X] Y; unfold Par.set.
    + destruct (dec l l); congruence.
    + destruct (dec x l) as [->|]; [congruence|eauto].
  - exists K; split; [|exact H2]. apply set_knows; auto.
Qed.
(** the value a read sees *)
Lemma read_k R W K l k s : within R W K (Read l k) -> holds C s -> knows K s -> within R W K (k (s l)).
Proof.
  cbn. intros H Hs Hk. destruct (C l) as [c|] eqn:E; [rewrite (Hs l c E); exact H|].
  destruct (U l) as [u|] eqn:EU; [destruct H as [H1 H2]; rewrite (Hk l u H1 EU); exact H2|]. apply H.
Qed.

Lemma run_total R W p : clean R W -> forall K s, holds C s -> knows K s -> within R W K p ->
  exists s', run p s = Some s' /\ holds C s' /\ forall K', knows K' s -> knows K' s'.
Proof.
  intros Hc. induction p as [|l k IH|l v k IH|]; intros K s Hs Hk Hp.
  - exists s; auto.
  - apply (IH (s l) K s Hs Hk). eapply read_k; eauto.
  - destruct (write_c _ _ _ _ _ _ Hc Hp) as [E _]. pose proof (write_u _ _ _ _ _ _ Hc Hp) as E2.
    destruct (write_k _ _ _ _ _ _ _ Hp Hk) as (K' & HK' & Hp').
    destruct (IH K' (set s l v) (set_holds _ _ _ E Hs) HK' Hp') as (s' & R1 & R2 & R3).
    exists s'; split; [exact R1|split; [exact R2|]]. intros X HX. apply R3, set_knows; auto.
  - destruct Hp.
Qed.

Lemma run_frame R W p : clean R W -> forall K s s' l, holds C s -> knows K s -> within R W K p -> run p s = Some s' -> ~ W l -> U l = None -> s' l = s l.
Proof.
  intros Hc. induction p as [|a k IH|a v k IH|]; intros K s s' l Hs Hk Hp H Hl Ul.
  - cbn in H; injection H as <-; reflexivity.
  - cbn in H. eapply IH; eauto. eapply read_k; eauto.
  - destruct (write_c _ _ _ _ _ _ Hc Hp) as [E E2]. destruct (write_k _ _ _ _ _ _ _ Hp Hk) as (K' & HK' & Hp').
    rewrite (IH K' _ s' l (set_holds _ _ _ E Hs) HK' Hp' H Hl Ul). unfold Par.set. destruct (dec l a) as [->|]; [|reflexivity].
    destruct E2 as [E2|[_ E2]]; [congruence|contradiction].
  - destruct Hp.
Qed.

(** a cell another thread reads: a constant, a shared cell it wrote, or one this program does not write *)
Lemma run_reads R W p K l R' W' K' k s s' : clean R W -> holds C s -> knows K s -> knows K' s -> within R W K p -> run p s = Some s' ->
  within R' W' K' (Read l k) -> (R' l -> ~ W l) -> s' l = s l.
Proof.
  intros Hc Hs Hk Hk' Hp H Hr Hn.
  destruct (run_total _ _ _ Hc K s Hs Hk Hp) as (s2 & E2 & H2 & H3). rewrite H in E2; injection E2 as <-.
  cbn in Hr. destruct (C l) as [c|] eqn:E; [rewrite (H2 l c E), (Hs l c E); reflexivity|].
  destruct (U l) as [u|] eqn:EU.
  - destruct Hr as [Hr _]. rewrite (H3 K' Hk' l u Hr EU), (Hk' l u Hr EU). reflexivity.
  - apply (run_frame R W p Hc K s s' l Hs Hk Hp H); [apply Hn, Hr|exact EU].
Qed.

(** a write of another thread may as well come first *)
Lemma run_late R W p : clean R W -> forall K s s' l v, holds C s -> knows K s -> within R W K p -> C l = None ->
  (U l = Some v \/ (U l = None /\ ~ W l /\ ~ R l)) ->
  run p s = Some s' -> exists t, run p (set s l v) = Some t /\ t == set s' l v.
Proof.
  intros Hc. induction p as [|a k IH|a w k IH|]; intros K s s' l v Hs Hk Hp Cl Hl H.
  - cbn in *; injection H as <-. eexists; split; [reflexivity|apply same_refl].
  - assert (X : set s l v a = s a).
    { unfold Par.set. destruct (dec a l) as [->|]; [|reflexivity]. cbn in Hp. rewrite Cl in Hp.
      destruct Hl as [Hu|(Hu & _ & Hn)]; rewrite Hu in Hp.
      - destruct Hp as [Hp _]. symmetry. exact (Hk l v Hp Hu).
      - exfalso. apply Hn, Hp. }
    pose proof (read_k _ _ _ _ _ _ Hp Hs Hk) as Hp'. cbn in H. cbn. rewrite X. eapply IH; eauto.
  - destruct (write_c _ _ _ _ _ _ Hc Hp) as [Ea Ea2]. destruct (write_k _ _ _ _ _ _ _ Hp Hk) as (K' & HK' & Hp').
    cbn in H. assert (S1 : holds C (set s a w)) by now apply set_holds.
    destruct (IH K' _ _ l v S1 HK' Hp' Cl Hl H) as (t & Ht & Et).
    assert (X : set (set s a w) l v == set (set s l v) a w).
    { intros x. unfold Par.set. destruct (dec x l) as [E1|]; destruct (dec x a) as [E2|]; try reflexivity.
      assert (El : l = a) by congruence. clear E1 E2. rewrite <- El in Ea2.
      destruct Hl as [Hu|(Hu & Hn & _)]; destruct Ea2 as [A|[A B]]; first [congruence|contradiction]. }
    destruct (run_ext _ _ _ _ X Ht) as (t' & Ht' & Et'). exists t'; split; [exact Ht'|].
    eapply same_trans; [apply same_sym, Et'|exact Et].
  - destruct Hp.
Qed.

(** the threads with what each may touch *)
Definition foot := ((L -> Prop) * (L -> Prop))%type.
Definition apart (f g : foot) : Prop :=
  (forall l, snd f l -> ~ snd g l /\ ~ fst g l) /\ (forall l, snd g l -> ~ snd f l /\ ~ fst f l).
Lemma apart_sym f g : apart f g -> apart g f. Proof. intros [A B]; split; auto. Qed.

Definition ok1 (s : store) (f : foot) (p : prog) : Prop := clean (fst f) (snd f) /\ exists K, knows K s /\ within (fst f) (snd f) K p.
Definition keeps (s : store) (fs : list foot) (ps : list prog) : Prop := Forall2 (ok1 s) fs ps /\ ForallOrdPairs apart fs.

Lemma f2_nth {A B} (P : A -> B -> Prop) l m j b : Forall2 P l m -> nth_error m j = Some b -> exists a, nth_error l j = Some a /\ P a b.
Proof.
  intros H. revert j. induction H as [|x y l m Hxy H IH]; intros [|j] E; cbn in *; try discriminate; [|eauto].
  injection E as ->. eauto.
Qed.
Lemma f2_put s t fs ps j p q : Forall2 (ok1 s) fs ps -> nth_error ps j = Some p ->
  (forall f, ok1 s f p -> ok1 t f q) -> (forall f x, ok1 s f x -> ok1 t f x) -> Forall2 (ok1 t) fs (put ps j q).
Proof.
  intros H Hj Hq Hx. revert j Hj. induction H as [|f x fs ps Hfx H IH]; intros j Hj; [destruct j; discriminate|].
  destruct j as [|j]; cbn in *; constructor; auto.
  - injection Hj as ->. auto.
  - clear - H Hx. induction H; constructor; auto.
Qed.

(** the remaining work of all threads, one thread after the other *)
Definition rest (ps : list prog) (s : store) : option store := run (chain ps) s.

Lemma ok1_later s s' f p : (forall K', knows K' s -> knows K' s') -> ok1 s f p -> ok1 s' f p.
Proof. intros H [Hc (K & H1 & H2)]. split; [exact Hc|]. exists K; auto. Qed.
Lemma f2_later s s' fs ps : (forall K', knows K' s -> knows K' s') -> Forall2 (ok1 s) fs ps -> Forall2 (ok1 s') fs ps.
Proof. intros H F. induction F; constructor; eauto using ok1_later. Qed.

Lemma rest_total fs ps : forall s, Forall2 (ok1 s) fs ps -> holds C s -> exists s', rest ps s = Some s' /\ holds C s'.
Proof.
  revert fs. induction ps as [|p ps IH]; intros fs s H Hs; [exists s; auto|].
  inversion H as [|f p' fs' ps' [Hc (K & HK & Hp)] H']; subst.
  destruct (run_total _ _ _ Hc K s Hs HK Hp) as (t & Ht & Hht & Hkt).
  destruct (IH fs' t (f2_later _ _ _ _ Hkt H') Hht) as (u & Hu & Hhu). exists u; split; [|exact Hhu].
  unfold rest in *. cbn. rewrite andthen_run, Ht. exact Hu.
Qed.

(** an access of the j-th thread, made now, leaves the outcome of the remaining work as it was *)
Lemma rest_step fs ps s qs t : keeps s fs ps -> holds C s -> step (ps, s) (qs, t) ->
  keeps t fs qs /\ holds C t /\ forall u, rest ps s = Some u -> exists w, rest qs t = Some w /\ w == u.
Proof.
  intros [H A] Hs St. inversion St as [ps0 s0 j l k Hj|ps0 s0 j l v k Hj]; subst.
  - (* read *)
    split; [split; [|exact A]|split; [exact Hs|]].
    { eapply f2_put; eauto. intros f [Hc (K & HK & Hp)]. split; [exact Hc|]. exists K; split; [exact HK|]. eapply read_k; eauto. }
    clear St. revert j Hj fs H A Hs. generalize t as s. clear t. induction ps as [|x ps IH]; intros s j Hj fs H A Hs u Hu; [destruct j; discriminate|].
    inversion H as [|f x' fs' ps' [Hc (K & HK & Hx)] H']; subst. inversion A as [|f' fs'' Hf Hfs]; subst.
    destruct j as [|j].
    + cbn in Hj. injection Hj as ->. exists u; split; [exact Hu|apply same_refl].
    + cbn in Hj. unfold rest in *. cbn in Hu |- *. rewrite andthen_run in Hu |- *.
      destruct (run_total _ _ _ Hc K s Hs HK Hx) as (s1 & E & H2s & H3s). rewrite E in Hu |- *.
      destruct (f2_nth _ _ _ _ _ H' Hj) as (g & Eg & [Hcg (Kg & HKg & Hg)]).
      rewrite Forall_forall in Hf. specialize (Hf g (nth_error_In _ _ Eg)).
      assert (Es : s1 l = s l).
      { apply (run_reads (fst f) (snd f) x K l (fst g) (snd g) Kg k s s1 Hc Hs HK HKg Hx E Hg). intros Hr Hw. destruct Hf as [Hf _]. destruct (Hf l Hw); contradiction. }
      rewrite <- Es. eapply IH; eauto. eapply f2_later; eauto.
  - (* write *)
    destruct (f2_nth _ _ _ _ _ H Hj) as (g0 & Eg0 & [Hcg0 (Kg0 & HKg0 & Hg0)]).
    destruct (write_c _ _ _ _ _ _ Hcg0 Hg0) as [Cl _]. pose proof (write_u _ _ _ _ _ _ Hcg0 Hg0) as Ul. clear g0 Eg0 Hcg0 Kg0 HKg0 Hg0.
    split; [split; [|exact A]|split; [now apply set_holds|]].
    { eapply f2_put; eauto.
      - intros f [Hc (K & HK & Hp)]. split; [exact Hc|]. eapply write_k; eauto.
      - intros f x. apply ok1_later. intros K'. apply set_knows; exact Ul. }
    clear St. revert j Hj fs H A Hs. generalize s as r. clear s. induction ps as [|x ps IH]; intros s j Hj fs H A Hs u Hu; [destruct j; discriminate|].
    inversion H as [|f x' fs' ps' [Hc (K & HK & Hx)] H']; subst. inversion A as [|f' fs'' Hf Hfs]; subst.
    destruct j as [|j].
    + cbn in Hj. injection Hj as ->. exists u; split; [exact Hu|apply same_refl].
    + cbn in Hj. unfold rest in *. cbn in Hu |- *. rewrite andthen_run in Hu |- *.
      destruct (run_total _ _ _ Hc K s Hs HK Hx) as (s1 & E & H2s & H3s). rewrite E in Hu.
      destruct (f2_nth _ _ _ _ _ H' Hj) as (g & Eg & [Hcg (Kg & HKg & Hg)]).
      rewrite Forall_forall in Hf. specialize (Hf g (nth_error_In _ _ Eg)).
      assert (Hl : U l = Some v \/ (U l = None /\ ~ snd f l /\ ~ fst f l)).
      { destruct (write_c _ _ _ _ _ _ Hcg Hg) as [_ [X|[X Y]]]; [left; exact X|right]. destruct Hf as [_ Hf]. destruct (Hf l Y); auto. }
      destruct (run_late _ _ _ Hc K s s1 l v Hs HK Hx Cl Hl E) as (t1 & Ht1 & Et1). rewrite Ht1.
      destruct (IH s1 j Hj fs' (f2_later _ _ _ _ H3s H') Hfs H2s u Hu) as (w & Hw & Ew).
      destruct (run_ext _ _ _ _ (same_sym _ _ Et1) Hw) as (w' & Hw' & Ew').
      exists w'; split; [exact Hw'|]. eapply same_trans; [apply same_sym, Ew'|exact Ew].
Qed.

Lemma rest_steps fs c d : steps c d -> keeps (snd c) fs (fst c) -> holds C (snd c) ->
  keeps (snd d) fs (fst d) /\ holds C (snd d) /\ forall u, rest (fst c) (snd c) = Some u -> exists w, rest (fst d) (snd d) = Some w /\ w == u.
Proof.
  induction 1 as [c|c d e St H IH]; intros Hk Hs.
  - split; [exact Hk|split; [exact Hs|]]. intros u Hu; exists u; split; [exact Hu|apply same_refl].
  - destruct c as [ps s], d as [qs t]. cbn in *. destruct (rest_step _ _ _ _ _ Hk Hs St) as (K1 & K2 & K3).
    destruct (IH K1 K2) as (J1 & J2 & J3). split; [exact J1|split; [exact J2|]].
    intros u Hu. destruct (K3 u Hu) as (w & Hw & Ew). destruct (J3 w Hw) as (x & Hx & Ex).
    exists x; split; [exact Hx|]. eapply same_trans; eauto.
Qed.

Lemma rest_ended ps : ended ps -> forall s, rest ps s = Some s.
Proof. unfold rest. induction 1 as [|p ps -> H IH]; intros s; [reflexivity|]. cbn. apply IH. Qed.

(** in any order of the programs *)
Lemma swap2 R W R' W' p : clean R W -> clean R' W' -> apart (R, W) (R', W') ->
  forall q s u K K', within R W K p -> within R' W' K' q -> holds C s -> knows K s -> knows K' s ->
  run (andthen p q) s = Some u -> exists w, run (andthen q p) s = Some w /\ w == u.
Proof.
  intros H1 H2 Ap q. induction q as [|l k IH|l v k IH|]; intros s u K K' P1 P2 Hs Hk Hk' Hu.
  - exists u; split; [|apply same_refl]. cbn. rewrite andthen_run in Hu. destruct (run p s); exact Hu.
  - cbn. rewrite andthen_run in Hu. destruct (run p s) as [s1|] eqn:E; [|discriminate]. cbn in Hu.
    assert (Es : s1 l = s l).
    { apply (run_reads R W p K l R' W' K' k s s1 H1 Hs Hk Hk' P1 E P2). intros Hr Hw. destruct Ap as [A _]. destruct (A l Hw); contradiction. }
    rewrite Es in Hu. eapply IH; eauto.
    + eapply read_k; eauto.
    + rewrite andthen_run, E. exact Hu.
  - destruct (write_c _ _ _ _ _ _ H2 P2) as [Cl Hl0]. pose proof (write_u _ _ _ _ _ _ H2 P2) as Ul.
    destruct (write_k _ _ _ _ _ _ _ P2 Hk') as (K2 & HK2 & P2').
    cbn. rewrite andthen_run in Hu. destruct (run p s) as [s1|] eqn:E; [|discriminate]. cbn in Hu.
    assert (Hl : U l = Some v \/ (U l = None /\ ~ W l /\ ~ R l)).
    { destruct Hl0 as [X|[X Y]]; [left; exact X|right]. destruct Ap as [_ A]. destruct (A l Y); auto. }
    destruct (run_late _ _ _ H1 K s s1 l v Hs Hk P1 Cl Hl E) as (t1 & Ht1 & Et1).
    destruct (run_ext _ _ _ _ (same_sym _ _ Et1) Hu) as (u' & Hu' & Eu').
    destruct (IH (set s l v) u' K K2 P1 P2' (set_holds _ _ _ Cl Hs) (set_knows _ _ _ _ Ul Hk) HK2) as (w & Hw & Ew).
    + rewrite andthen_run, Ht1. exact Hu'.
    + exists w; split; [exact Hw|]. eapply same_trans; [exact Ew|apply same_sym, Eu'].
  - destruct P2.
Qed.
Lemma knows_none s : knows none s. Proof. intros l u []. Qed.
End Ctx.

Lemma put_nth (ps : list prog) j p : j < length ps -> nth_error (put ps j p) j = Some p.
Proof. revert j. induction ps as [|x ps IH]; intros [|j] H; cbn in *; try lia; [reflexivity|]. apply IH; lia. Qed.
Lemma put_len (ps : list prog) j p : length (put ps j p) = length ps.
Proof. revert j. induction ps as [|x ps IH]; intros [|j]; cbn; auto. Qed.

(** iterations with a footprint each *)
Section Loop.
Context (C U : L -> option V) (CU : forall l, C l <> None -> U l = None).
Context (n : nat) (body : nat -> prog) (R W : nat -> L -> Prop).
Context (Hclean : forall i, i < n -> clean C U (R i) (W i)).
Context (Hwithin : forall i, i < n -> within C U (R i) (W i) none (body i)).
Context (Hapart : forall i j, i < n -> j < n -> i <> j -> forall l, W i l -> ~ W j l /\ ~ R j l).

(** the footprint of a set of iterations *)
Definition fR (c : list nat) : L -> Prop := fun l => exists i, In i c /\ R i l.
Definition fW (c : list nat) : L -> Prop := fun l => exists i, In i c /\ W i l.
Lemma chunk_clean c : (forall i, In i c -> i < n) -> clean C U (fR c) (fW c).
Proof. intros H l (i & Hi & Hl). apply (Hclean i (H i Hi)), Hl. Qed.
Lemma chunk_within c : (forall i, In i c -> i < n) -> within C U (fR c) (fW c) none (chain (map body c)).
Proof.
  intros H. apply within_chain. apply Forall_forall. intros p Hp. apply in_map_iff in Hp. destruct Hp as (i & <- & Hi).
  eapply within_mono; [| | |apply Hwithin, H, Hi]; try (intros l Hl; exists i; auto). auto.
Qed.
Lemma chunk_apart c d : (forall i, In i c -> i < n) -> (forall i, In i d -> i < n) -> (forall i, In i c -> ~ In i d) -> apart (fR c, fW c) (fR d, fW d).
Proof.
  intros Hc Hd N. split; cbn.
  - intros l (i & Hi & Hl). split; intros (j & Hj & Hl').
    + assert (i <> j) by (intros ->; exact (N j Hi Hj)). destruct (Hapart i j (Hc i Hi) (Hd j Hj) H l Hl); auto.
    + assert (i <> j) by (intros ->; exact (N j Hi Hj)). destruct (Hapart i j (Hc i Hi) (Hd j Hj) H l Hl); auto.
  - intros l (i & Hi & Hl). split; intros (j & Hj & Hl').
    + assert (i <> j) by (intros ->; exact (N j Hj Hi)). destruct (Hapart i j (Hd i Hi) (Hc j Hj) H l Hl); auto.
    + assert (i <> j) by (intros ->; exact (N j Hj Hi)). destruct (Hapart i j (Hd i Hi) (Hc j Hj) H l Hl); auto.
Qed.

Definition feet (plan : list (list nat)) : list foot := map (fun c => (fR c, fW c)) plan.
Lemma plan_keeps plan : NoDup (concat plan) -> (forall i, In i (concat plan) -> i < n) -> forall s, keeps C U s (feet plan) (threads body plan).
Proof.
  intros ND B s. split.
  - unfold feet, threads. clear ND. induction plan as [|c plan IH]; cbn; constructor.
    + cbn in B. split; [apply chunk_clean; intros i Hi; apply B, in_or_app; auto|]. exists none. split; [apply knows_none|]. apply chunk_within; intros i Hi; apply B, in_or_app; auto.
    + apply IH. intros i Hi; apply B; cbn; apply in_or_app; auto.
  - unfold feet. induction plan as [|c plan IH]; cbn in *; constructor.
    + apply Forall_forall. intros f Hf. apply in_map_iff in Hf. destruct Hf as (d & <- & Hd).
      apply chunk_apart.
      * intros i Hi; apply B, in_or_app; auto.
      * intros i Hi; apply B, in_or_app; right; apply in_concat; eauto.
      * intros i Hi Hi'. clear - ND Hi Hi' Hd. induction c as [|x c IH]; [destruct Hi|].
        cbn in ND. inversion ND as [|? ? N1 N2]; subst. destruct Hi as [->|Hi]; [|auto].
        apply N1, in_or_app; right; apply in_concat; eauto.
    + apply IH.
      * clear - ND. induction c as [|x c IH]; [exact ND|]. cbn in ND. inversion ND; auto.
      * intros i Hi; apply B, in_or_app; auto.
Qed.

Lemma chain_concat plan s : run (chain (threads body plan)) s = run (chain (map body (concat plan))) s.
Proof.
  revert s. induction plan as [|c plan IH]; intros s; [reflexivity|].
  transitivity (run (andthen (chain (map body c)) (chain (threads body plan))) s); [reflexivity|].
  cbn [concat]. rewrite map_app, chain_app, andthen_run.
  destruct (run (chain (map body c)) s); [apply IH|reflexivity].
Qed.

Lemma chain_total c : (forall i, In i c -> i < n) -> forall s, holds C s -> exists s', run (chain (map body c)) s = Some s' /\ holds C s'.
Proof. intros B s Hs. destruct (run_total C U CU _ _ _ (chunk_clean c B) none s Hs (knows_none _ _) (chunk_within c B)) as (t & A1 & A2 & _). eauto. Qed.

(** the order of the iterations does not matter *)
Lemma chain_perm c d : Permutation c d -> NoDup c -> (forall i, In i c -> i < n) ->
  forall s u, holds C s -> run (chain (map body c)) s = Some u -> exists w, run (chain (map body d)) s = Some w /\ w == u.
Proof.
  induction 1 as [|x c d H IH|x y c|c d e H1 IH1 H2 IH2]; intros ND B s u Hs Hu.
  - exists u; split; [exact Hu|apply same_refl].
  - cbn in *. rewrite andthen_run in Hu. rewrite andthen_run. inversion ND; subst.
    destruct (run (body x) s) as [t|] eqn:E; [|discriminate].
    destruct (run_total C U CU _ _ _ (Hclean x (B x (or_introl eq_refl))) none s Hs (knows_none _ _) (Hwithin x (B x (or_introl eq_refl)))) as (t' & E' & Ht & _). rewrite E in E'; injection E' as <-.
    apply IH; auto.
  - cbn in *. change (fold_right andthen Ret (map body c)) with (chain (map body c)) in *.
    rewrite <- andthen_assoc_run in Hu. rewrite andthen_run in Hu.
    destruct (run (andthen (body y) (body x)) s) as [t|] eqn:E; [|discriminate].
    inversion ND as [|? ? N1 N2]; subst.
    assert (Ne : y <> x) by (intros ->; apply N1; cbn; auto).
    assert (By : y < n) by (apply B; cbn; auto). assert (Bx : x < n) by (apply B; cbn; auto).
    destruct (swap2 C U CU (R y) (W y) (R x) (W x) (body y) (Hclean y By) (Hclean x Bx)) with (q := body x) (s := s) (u := t) (K := @none) (K' := @none) as (t' & E' & Et'); auto using knows_none.
    { split; cbn; intros l Hl; [apply (Hapart y x By Bx Ne l Hl)|apply (Hapart x y Bx By (not_eq_sym Ne) l Hl)]. }
    destruct (run_ext _ _ _ _ (same_sym _ _ Et') Hu) as (u' & Hu' & Eu').
    exists u'; split; [|apply same_sym, Eu'].
    rewrite <- andthen_assoc_run. rewrite andthen_run, E'. exact Hu'.
  - destruct (IH1 ND B s u Hs Hu) as (w & Hw & Ew).
    destruct (IH2 (Permutation_NoDup H1 ND) (fun i Hi => B i (Permutation_in i (Permutation_sym H1) Hi)) s w Hs Hw) as (x & Hx & Ex).
    exists x; split; [exact Hx|]. eapply same_trans; eauto.
Qed.

Lemma plan_facts plan : fair_plan n plan -> NoDup (concat plan) /\ forall i, In i (concat plan) -> i < n.
Proof.
  intros P. split.
  - eapply Permutation_NoDup; [apply Permutation_sym, P|apply seq_NoDup].
  - intros i Hi. apply (Permutation_in i P) in Hi. apply in_seq in Hi. lia.
Qed.

Theorem loop_deterministic plan s ps s' : holds C s -> fair_plan n plan -> steps (threads body plan, s) (ps, s') -> ended ps ->
  exists t, run (chain (map body (seq 0 n))) s = Some t /\ s' == t /\ holds C t.
Proof.
  intros Hs P St E. destruct (plan_facts _ P) as [ND B].
  destruct (rest_steps C U CU (feet plan) _ _ St (plan_keeps _ ND B s) Hs) as (K1 & K2 & K3). cbn [fst snd] in *.
  destruct (chain_total (seq 0 n)) with (s := s) as (t & Ht & Hht); auto. { intros i Hi; apply in_seq in Hi; lia. }
  destruct (chain_perm (seq 0 n) (concat plan) (Permutation_sym P) (seq_NoDup n 0)) with (s := s) (u := t) as (w & Hw & Ew); auto.
  { intros i Hi; apply in_seq in Hi; lia. }
  rewrite <- chain_concat in Hw. destruct (K3 w Hw) as (x & Hx & Ex). rewrite (rest_ended _ E) in Hx. injection Hx as <-.
  exists t; split; [exact Ht|split; [|exact Hht]]. eapply same_trans; eauto.
Qed.

(** no thread ever gets stuck *)
Theorem loop_safe plan s ps s' : holds C s -> fair_plan n plan -> steps (threads body plan, s) (ps, s') -> ~ stuck ps.
Proof.
  intros Hs P St. destruct (plan_facts _ P) as [ND B].
  destruct (rest_steps C U CU (feet plan) _ _ St (plan_keeps _ ND B s) Hs) as ((K1 & _) & _ & _). cbn [fst snd] in *.
  unfold stuck. clear St. generalize dependent (feet plan). intros fs H. induction H as [|f p fs ps [_ (K & _ & Hp)] H IH]; cbn; [tauto|].
  intros [->|I]; [destruct Hp|auto].
Qed.
End Loop.

(** a pool none of whose threads is stuck can be run to the end, by its first thread first *)
Lemma finish_one (p : prog) : forall ps1 ps2 s s', run p s = Some s' -> steps (ps1 ++ p :: ps2, s) (ps1 ++ Ret :: ps2, s').
Proof.
  induction p as [|l k IH|l v k IH|]; intros ps1 ps2 s s' H; cbn in H.
  - injection H as <-. apply rt1n_refl.
  - eapply Relation_Operators.rt1n_trans; [|apply (IH _ ps1 ps2 s s' H)].
    replace (ps1 ++ k (s l) :: ps2) with (put (ps1 ++ Read l k :: ps2) (length ps1) (k (s l))).
    + apply step_read. rewrite nth_error_app2, Nat.sub_diag; [reflexivity|lia].
    + clear. induction ps1; cbn; congruence.
  - eapply Relation_Operators.rt1n_trans; [|apply (IH ps1 ps2 _ s' H)].
    replace (ps1 ++ k :: ps2) with (put (ps1 ++ Write l v k :: ps2) (length ps1) k).
    + apply step_write. rewrite nth_error_app2, Nat.sub_diag; [reflexivity|lia].
    + clear. induction ps1; cbn; congruence.
  - discriminate.
Qed.
Lemma steps_trans c d e : steps c d -> steps d e -> steps c e.
Proof. intros H K. induction H as [x|x y z St H IH]; [exact K|]. exact (Relation_Operators.rt1n_trans _ _ _ _ _ St (IH K)). Qed.
Lemma finish_all ps : forall ps1 s s', run (chain ps) s = Some s' -> steps (ps1 ++ ps, s) (ps1 ++ map (fun _ => Ret) ps, s').
Proof.
  induction ps as [|p ps IH]; intros ps1 s s' H; cbn in *.
  - injection H as <-. apply rt1n_refl.
  - rewrite andthen_run in H. destruct (run p s) as [t|] eqn:E; [|discriminate].
    eapply steps_trans; [apply (finish_one p ps1 ps s t E)|].
    replace (ps1 ++ Ret :: ps) with ((ps1 ++ [Ret]) ++ ps) by (rewrite <- app_assoc; reflexivity).
    replace (ps1 ++ Ret :: map (fun _ => Ret) ps) with ((ps1 ++ [Ret]) ++ map (fun _ : prog => @Ret L V) ps) by (rewrite <- app_assoc; reflexivity).
    apply IH, H.
Qed.
Lemma rets_ended (ps : list prog) : ended (map (fun _ => @Ret L V) ps).
Proof. induction ps; constructor; auto. Qed.

Section Loop2.
Context (C U : L -> option V) (CU : forall l, C l <> None -> U l = None).
Context (n : nat) (body : nat -> prog) (R W : nat -> L -> Prop).
Context (Hclean : forall i, i < n -> clean C U (R i) (W i)).
Context (Hwithin : forall i, i < n -> within C U (R i) (W i) none (body i)).
Context (Hapart : forall i j, i < n -> j < n -> i <> j -> forall l, W i l -> ~ W j l /\ ~ R j l).

(** wherever the threads are, they can be run to the end *)
Theorem loop_completes plan s ps s' : holds C s -> fair_plan n plan -> steps (threads body plan, s) (ps, s') ->
  exists qs t, steps (ps, s') (qs, t) /\ ended qs.
Proof.
  intros Hs P St. destruct (plan_facts _ _ P) as [ND B].
  destruct (rest_steps C U CU (feet R W plan) _ _ St (plan_keeps C U n body R W Hclean Hwithin Hapart _ ND B s) Hs) as (K1 & K2 & _). cbn [fst snd] in *.
  destruct (rest_total C U CU _ _ s' (proj1 K1) K2) as (t & Ht & _).
  exists (map (fun _ => Ret) ps), t. split; [exact (finish_all ps [] s' t Ht)|apply rets_ended].
Qed.
End Loop2.
End P.
