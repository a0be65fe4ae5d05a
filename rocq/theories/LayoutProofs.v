(** Proof rules for memory carve-outs (Layout.v). *)
From Coq Require Import ZArith List String Lia.
From Verif Require Import Layout.
Import ListNotations.
Open Scope Z_scope.

Lemma align_ge k p : 0 < k -> p <= align_char_to k p.
Proof. intros Hk. unfold align_char_to.
  pose proof (Z_div_mod_eq_full (p + k - 1) k). pose proof (Z.mod_pos_bound (p+k-1) k Hk). nia. Qed.
Lemma align_mod k p : 0 < k -> align_char_to k p mod k = 0.
Proof. intros Hk. unfold align_char_to. apply Z.mod_mul. lia. Qed.
Lemma align_lt k p : 0 < k -> align_char_to k p < p + k.
Proof. intros Hk. unfold align_char_to.
  pose proof (Z_div_mod_eq_full (p + k - 1) k). pose proof (Z.mod_pos_bound (p+k-1) k Hk). nia. Qed.
Lemma align_le_gran k al p : 0 < al -> (al | k) -> 0 < k -> p mod al = 0 ->
  align_char_to k p <= p + (k - al).
Proof.
  intros Ha [c Hc] Hk Hp.
  pose proof (align_lt k p Hk). pose proof (align_mod k p Hk).
  assert (exists a, align_char_to k p = a * al) as [a Ea].
  { exists ((p + k - 1) / k * c). unfold align_char_to. subst k. ring. }
  assert (exists b, p = b * al) as [b Eb].
  { exists (p / al). pose proof (Z_div_mod_eq_full p al). lia. }
  rewrite Ea, Eb, Hc in *. clear - Ha H.
  assert (a < b + c) by (apply (Z.mul_lt_mono_pos_r al); lia).
  assert (a * al <= (b + c - 1) * al) by (apply Z.mul_le_mono_nonneg_r; lia). lia.
Qed.
Lemma mim_ge k s : s <= make_int_multiple_of k s.
Proof. unfold make_int_multiple_of. destruct (Z.gtb_spec k 1); [|lia].
  apply (align_ge k s). lia. Qed.
Lemma mim_mod k s : 1 < k -> make_int_multiple_of k s mod k = 0.
Proof. intros H. unfold make_int_multiple_of. destruct (Z.gtb_spec k 1); [|lia]. apply Z.mod_mul. lia. Qed.

Lemma carve_app a b p :
  carve (a ++ b) p =
  (fst (carve a p) ++ fst (carve b (snd (carve a p))), snd (carve b (snd (carve a p)))).
Proof.
  revert p; induction a as [|o a IH]; intros p; cbn.
  - destruct (carve b p); reflexivity.
  - destruct o as [n|k len]; cbn.
    + apply IH.
    + rewrite IH. destruct (carve a (p+len)) as [bs e]; reflexivity.
Qed.
Lemma blocks_app a b p : blocks (a ++ b) p = blocks a p ++ blocks b (finish a p).
Proof. unfold blocks, finish. rewrite carve_app. reflexivity. Qed.
Lemma finish_app a b p : finish (a ++ b) p = finish b (finish a p).
Proof. unfold finish. rewrite carve_app. reflexivity. Qed.
Lemma blocks_take k l r p : blocks (Take k l :: r) p = mkBlock k p l :: blocks r (p + l).
Proof. unfold blocks; cbn. destruct (carve r (p+l)); reflexivity. Qed.
Lemma finish_take k l r p : finish (Take k l :: r) p = finish r (p + l).
Proof. unfold finish; cbn. destruct (carve r (p+l)); reflexivity. Qed.

(** [good]: lengths non-negative, alignments positive. *)
Definition good_op (o : op) : Prop :=
  match o with Align n => 0 < n | Take _ len => 0 <= len end.
Definition good (ops : list op) := Forall good_op ops.

Lemma good_finish ops p : good ops -> p <= finish ops p.
Proof.
  revert p; induction ops as [|o r IH]; intros p Hg; [unfold finish; cbn; lia|].
  inversion Hg as [|? ? Ho Hr]; subst. destruct o as [n|k len]; cbn in Ho.
  - change (p <= finish r (align_char_to n p)). pose proof (align_ge n p Ho). specialize (IH (align_char_to n p) Hr). lia.
  - rewrite finish_take. specialize (IH (p+len) Hr). lia.
Qed.

Lemma good_blocks ops p : good ops ->
  Forall (fun b => p <= blk_start b /\ 0 <= blk_len b /\ blk_start b + blk_len b <= finish ops p) (blocks ops p).
Proof.
  revert p; induction ops as [|o r IH]; intros p Hg; [constructor|].
  inversion Hg as [|? ? Ho Hr]; subst. destruct o as [n|k len]; cbn in Ho.
  - change (blocks (Align n :: r) p) with (blocks r (align_char_to n p)).
    change (finish (Align n :: r) p) with (finish r (align_char_to n p)).
    eapply Forall_impl; [|apply IH; exact Hr].
    intros b Hb; cbn in Hb. pose proof (align_ge n p Ho). lia.
  - rewrite blocks_take, finish_take. constructor; cbn.
    + pose proof (good_finish r (p+len) Hr). lia.
    + eapply Forall_impl; [|apply IH; exact Hr]. intros b Hb; cbn in Hb. lia.
Qed.

Lemma good_apart ops p : good ops -> ForallOrdPairs apart (blocks ops p).
Proof.
  revert p; induction ops as [|o r IH]; intros p Hg; [constructor|].
  inversion Hg as [|? ? Ho Hr]; subst. destruct o as [n|k len]; cbn in Ho.
  - apply IH; exact Hr.
  - rewrite blocks_take. constructor; [|apply IH; exact Hr].
    eapply Forall_impl; [|apply good_blocks; exact Hr].
    intros b Hb; cbn in Hb. left; cbn. lia.
Qed.

(** [fits chk ops al0 al1 n]: started at any address that is a multiple of [al0] the code finishes
    at a multiple of [al1], at most [n] bytes further; with [chk], every block is aligned. *)
Definition fits (chk : bool) (ops : list op) (al0 al1 n : Z) : Prop :=
  good ops /\
  forall p, p mod al0 = 0 ->
    finish ops p <= p + n /\ finish ops p mod al1 = 0 /\
    (chk = true -> Forall aligned (blocks ops p)).

Lemma mod_divide_trans p a b : 0 < a -> 0 < b -> (a | b) -> p mod b = 0 -> p mod a = 0.
Proof. intros Ha Hb Hd Hp. apply Z.mod_divide in Hp; [|lia]. apply Z.mod_divide; [lia|].
  eapply Z.divide_trans; eassumption. Qed.

Lemma fits_nil chk al : fits chk [] al al 0.
Proof. split; [constructor|]. intros p Hp. unfold finish, blocks; cbn. repeat split; [lia|exact Hp|constructor]. Qed.

Lemma fits_app chk a b al0 al1 al2 n m :
  fits chk a al0 al1 n -> fits chk b al1 al2 m -> fits chk (a ++ b) al0 al2 (n + m).
Proof.
  intros [Ga Ha] [Gb Hb]. split; [apply Forall_app; split; assumption|]. intros p Hp.
  destruct (Ha p Hp) as (A1 & A2 & A3). destruct (Hb _ A2) as (B1 & B2 & B3).
  rewrite finish_app, blocks_app. repeat split; [lia|exact B2|].
  intros Hc. apply Forall_app; auto.
Qed.

Lemma fits_align chk r k al al1 n : 0 < al -> (al | k) -> 0 < k ->
  fits chk r k al1 n -> fits chk (Align k :: r) al al1 (k - al + n).
Proof.
  intros Ha Hd Hk [Gr Hr]. split; [constructor; assumption|]. intros p Hp.
  pose proof (align_mod k p Hk) as Hm. pose proof (align_le_gran k al p Ha Hd Hk Hp).
  destruct (Hr _ Hm) as (A & B & C).
  change (finish (Align k :: r) p) with (finish r (align_char_to k p)).
  change (blocks (Align k :: r) p) with (blocks r (align_char_to k p)).
  repeat split; [lia|exact B|exact C].
Qed.

(** aligning to a coarser known alignment costs nothing *)
Lemma fits_align0 chk r k al al1 n : 0 < k -> (k | al) -> 0 < al ->
  fits chk r al al1 n -> fits chk (Align k :: r) al al1 n.
Proof.
  intros Hk Hd Ha [Gr Hr]. split; [constructor; assumption|]. intros p Hp.
  assert (align_char_to k p = p) as E.
  { pose proof (mod_divide_trans p k al Hk Ha Hd Hp) as Hm.
    pose proof (align_ge k p Hk). pose proof (align_le_gran k k p Hk (Z.divide_refl k) Hk Hm). lia. }
  change (finish (Align k :: r) p) with (finish r (align_char_to k p)).
  change (blocks (Align k :: r) p) with (blocks r (align_char_to k p)).
  rewrite E. apply Hr; exact Hp.
Qed.

Lemma fits_take chk r k len al al' al1 n :
  0 <= len -> 0 < al' -> 0 < al -> (al' | al) -> len mod al' = 0 ->
  (chk = true -> (kind_align k | al)) ->
  fits chk r al' al1 n -> fits chk (Take k len :: r) al al1 (len + n).
Proof.
  intros Hl Ha' Ha Hd Hm Hk [Gr Hr]. split; [constructor; assumption|]. intros p Hp.
  assert ((p + len) mod al' = 0) as Hpl.
  { rewrite Z.add_mod by lia. rewrite Hm. rewrite (mod_divide_trans p al' al Ha' Ha Hd Hp).
    rewrite Z.mod_0_l; lia. }
  destruct (Hr _ Hpl) as (A & B & C). rewrite finish_take, blocks_take.
  repeat split; [lia|exact B|]. intros Hc. constructor; [|auto].
  unfold aligned; cbn. apply (mod_divide_trans p (kind_align k) al); auto.
  destruct k; cbn; lia.
Qed.

Lemma fits_for chk nn body al f : 
  (forall i, (i < nn)%nat -> fits chk (body i) al al (f i)) ->
  fits chk (for_ops nn body) al al (zsum nn f).
Proof.
  induction nn as [|m IH]; intros H; cbn; [apply fits_nil|].
  eapply fits_app; [apply IH; intros i Hi; apply H; lia|apply H; lia].
Qed.

Lemma fits_weaken chk ops al al0 al1 n : 0 < al -> 0 < al0 -> (al0 | al) ->
  fits chk ops al0 al1 n -> fits chk ops al al1 n.
Proof. intros Ha Ha0 Hd [G H]. split; [exact G|]. intros p Hp. apply H.
  eapply mod_divide_trans; [..|exact Hp]; eauto. Qed.
Lemma fits_coarsen chk ops al0 al al1 n : 0 < al -> 0 < al1 -> (al1 | al) ->
  fits chk ops al0 al n -> fits chk ops al0 al1 n.
Proof. intros Ha Ha0 Hd [G H]. split; [exact G|]. intros p Hp.
  destruct (H p Hp) as (A&B&C). repeat split; [exact A| |exact C].
  eapply mod_divide_trans; [..|exact B]; eauto. Qed.

Lemma fits_carved chk ops al al1 n base size :
  fits chk ops al al1 n -> base mod al = 0 -> n <= size ->
  carved_within base size (blocks ops base).
Proof.
  intros [G H] Hb Hn. destruct (H base Hb) as (A & _ & _). split.
  - eapply Forall_impl; [|apply good_blocks; exact G]. intros b Hbk; cbn in Hbk. red. lia.
  - apply good_apart; exact G.
Qed.
Lemma fits_aligned ops al al1 n base :
  fits true ops al al1 n -> base mod al = 0 -> Forall aligned (blocks ops base).
Proof. intros [G H] Hb. apply (H base Hb). reflexivity. Qed.

(** ** sums *)
Lemma zsum_plus n f g : zsum n (fun i => f i + g i) = zsum n f + zsum n g.
Proof. induction n as [|m IH]; cbn; lia. Qed.
Lemma zsum_S n f : zsum (S n) f = zsum n f + f n.
Proof. reflexivity. Qed.
Lemma zsum_nonneg n f : (forall i, (i < n)%nat -> 0 <= f i) -> 0 <= zsum n f.
Proof. induction n as [|m IH]; cbn; intros H; [lia|]. pose proof (H m ltac:(lia)).
  specialize (IH ltac:(intros i Hi; apply H; lia)). lia. Qed.
Lemma zsum_ext n f g : (forall i, (i < n)%nat -> f i = g i) -> zsum n f = zsum n g.
Proof. induction n as [|m IH]; cbn; intros H; [lia|]. rewrite (H m) by lia. rewrite IH by (intros; apply H; lia). reflexivity. Qed.
Lemma zsum_mod n f k : 0 < k -> (forall i, (i < n)%nat -> f i mod k = 0) -> zsum n f mod k = 0.
Proof. intros Hk. induction n as [|m IH]; cbn; intros H; [apply (Z.mod_0_l k); lia|].
  rewrite Z.add_mod by lia. rewrite IH, (H m) by (intros; try apply H; lia). apply (Z.mod_0_l k); lia. Qed.
Lemma zsum_scal n c f : zsum n (fun i => c * f i) = c * zsum n f.
Proof. induction n as [|m IH]; cbn; lia. Qed.
Lemma zsum_const n c : zsum n (fun _ => c) = Z.of_nat n * c.
Proof. induction n as [|m IH]; cbn [zsum]; lia. Qed.

Lemma mod_mul_r a b k : 0 < k -> b mod k = 0 -> (a * b) mod k = 0.
Proof. intros Hk H. rewrite Z.mul_mod by lia. rewrite H, Z.mul_0_r. apply Z.mod_0_l; lia. Qed.
Lemma mod_mul_l a b k : 0 < k -> a mod k = 0 -> (a * b) mod k = 0.
Proof. intros Hk H. rewrite Z.mul_comm. apply mod_mul_r; assumption. Qed.
Lemma mod_add a b k : 0 < k -> a mod k = 0 -> b mod k = 0 -> (a + b) mod k = 0.
Proof. intros Hk H1 H2. rewrite Z.add_mod by lia. rewrite H1, H2. apply Z.mod_0_l; lia. Qed.

(** ** automation *)

(** Non-negativity of lengths. *)
Create HintDb lay.

Ltac div_solve := first [ apply Z.divide_refl | apply Z.divide_1_l | exists 2; reflexivity | exists 8; reflexivity
  | exists 4; reflexivity | exists 16; reflexivity | exists 64; reflexivity ].

Lemma env_so E s : env_ok E -> 0 <= so E s.  Proof. intros H; apply H. Qed.
Lemma env_so8 E s : env_ok E -> so E s mod 8 = 0.  Proof. intros H; apply H. Qed.
Lemma env_soi E s : env_ok E -> 0 <= soi E s.  Proof. intros (_&H&_); apply H. Qed.
Lemma env_soi4 E s : env_ok E -> soi E s mod 4 = 0.  Proof. intros (_&H&_); apply H. Qed.
Lemma env_dvec E m : env_ok E -> 0 <= m -> 0 <= ms_dvec E m.
Proof. intros (_&_&H&_) Hm. specialize (H m Hm). lia. Qed.
Lemma env_dvec8 E m : env_ok E -> 0 <= m -> ms_dvec E m mod 8 = 0.
Proof. intros (_&_&H&_) Hm. apply (H m Hm). Qed.
Lemma env_dmat E m n : env_ok E -> 0 <= m -> 0 <= n -> 0 <= ms_dmat E m n.
Proof. intros (_&_&_&H&_) Hm Hn. destruct (H m n Hm Hn) as [A _]. nia. Qed.
Lemma env_dmat64 E m n : env_ok E -> 0 <= m -> 0 <= n -> ms_dmat E m n mod 64 = 0.
Proof. intros (_&_&_&H&_) Hm Hn. apply (H m n Hm Hn). Qed.
Lemma env_sub E s i : env_ok E -> 0 <= sub E s i.  Proof. intros (_&_&_&_&H); apply H. Qed.
Lemma env_sub8 E s i : env_ok E -> sub E s i mod 8 = 0.  Proof. intros (_&_&_&_&H); apply H. Qed.

(** numeric side conditions *)
Ltac nn := lazymatch goal with
 | |- 0 <= so _ _ => apply env_so; assumption
 | |- 0 <= soi _ _ => apply env_soi; assumption
 | |- 0 <= sub _ _ _ => apply env_sub; assumption
 | |- 0 <= ms_dvec _ _ => apply env_dvec; [assumption|nn]
 | |- 0 <= ms_dmat _ _ _ => apply env_dmat; [assumption|nn|nn]
 | |- 0 <= _ * _ => apply Z.mul_nonneg_nonneg; nn
 | |- 0 <= _ + _ => apply Z.add_nonneg_nonneg; nn
 | |- 0 <= zsum _ _ => apply zsum_nonneg; intros ? _; nn
 | |- 0 <= make_int_multiple_of _ _ => eapply Z.le_trans; [|apply mim_ge]; nn
 | |- 0 <= (if ?b then _ else _) => destruct b; nn
 | |- _ => first [ assumption | solve [unfold so_int, so_dbl, so_ptr, so_bool; lia] | solve [eauto with lay] ]
 end.

Ltac md_from k c := apply (mod_divide_trans _ k c); [lia|lia|div_solve| ].
Ltac md := lazymatch goal with
 | |- _ mod 1 = 0 => apply Z.mod_1_r
 | |- so _ _ mod ?k = 0 => md_from k 8; apply env_so8; assumption
 | |- soi _ _ mod ?k = 0 => md_from k 4; apply env_soi4; assumption
 | |- sub _ _ _ mod ?k = 0 => md_from k 8; apply env_sub8; assumption
 | |- ms_dvec _ _ mod ?k = 0 => md_from k 8; apply env_dvec8; [assumption|nn]
 | |- ms_dmat _ _ _ mod ?k = 0 => md_from k 64; apply env_dmat64; [assumption|nn|nn]
 | |- make_int_multiple_of ?c _ mod ?k = 0 => md_from k c; apply mim_mod; lia
 | |- (_ + _) mod _ = 0 => apply mod_add; [lia|md|md]
 | |- (_ * _) mod _ = 0 => first [apply mod_mul_r; [lia|md] | apply mod_mul_l; [lia|md]]
 | |- zsum _ _ mod _ = 0 => apply zsum_mod; [lia|intros ? _; md]
 | |- (if ?b then _ else _) mod _ = 0 => destruct b; md
 | |- so_int mod _ = 0 => reflexivity
 | |- so_dbl mod _ = 0 => reflexivity
 | |- so_ptr mod _ = 0 => reflexivity
 | |- so_bool mod _ = 0 => reflexivity
 | |- _ => first [ assumption | reflexivity | solve [eauto with lay] ]
 end.

Ltac take_to a := eapply (fits_take _ _ _ _ _ a);
  [ nn | lia | lia | div_solve | md
  | first [intros HHH; discriminate HHH | intros _; cbn [kind_align]; div_solve] | ].
Ltac al_step k :=
  match goal with
  | |- fits _ (Align k :: _) ?a _ _ =>
     first [ apply (fits_align0 _ _ k a); [lia|div_solve|lia|]
           | eapply (fits_align _ _ k a); [lia|div_solve|lia|] ]
  end.
