(** Top-level layout lemmas in the form the property file states them. *)
From Coq Require Import ZArith String List Lia.
From Verif Require Import Layout LayoutProofs LayoutNlp LayoutNlpProofs LayoutDimsProofs LayoutEnv ZeroModel ZeroProofs.
Import ListNotations.
Open Scope Z_scope.

Lemma spec_any chk ops al1 size base :
  (exists n, fits chk ops 1 al1 n /\ n <= size) -> carved_within base size (blocks ops base).
Proof. intros (n & F & H). eapply fits_carved; [exact F|apply Z.mod_1_r|exact H]. Qed.
Lemma spec_al ops al al1 size base :
  (exists n, fits true ops al al1 n /\ n <= size) -> base mod al = 0 -> Forall aligned (blocks ops base).
Proof. intros (n & F & _). apply (fits_aligned _ _ _ _ _ F). Qed.
Lemma spec_al1 ops al1 size base :
  (exists n, fits true ops 1 al1 n /\ n <= size) -> Forall aligned (blocks ops base).
Proof. intros H. eapply spec_al; [exact H|apply Z.mod_1_r]. Qed.

Lemma all_fit E d o base : env_ok E -> dims_ok d ->
  carved_within base (config_size E d) (blocks (config_assign E d) base) /\
  carved_within base (in_size E d) (blocks (in_assign E d) base) /\
  carved_within base (out_size E d) (blocks (out_assign E d) base) /\
  carved_within base (opts_size E d) (blocks (opts_assign E d) base) /\
  carved_within base (res_size E d) (blocks (res_assign E d) base) /\
  carved_within base (mem_size E d o) (blocks (mem_assign E d o) base) /\
  carved_within base (ws_size E d o) (blocks (ws_assign E d o) base) /\
  carved_within base (dims_self_size E d) (blocks (dims_self_assign E d) base).
Proof.
  intros HE Hd. repeat split; try (eapply spec_any;
   first [apply config_fits_any|apply in_fits|apply out_fits|apply opts_fits|apply res_fits
         |apply mem_fits|apply ws_fits_any|apply dims_self_fits]; assumption).
Qed.

Lemma dims_fit E d dyn cost con qp rqp base : env_ok E ->
  (forall i, 0 <= dyn i) -> (forall i, 0 <= cost i) -> (forall i, 0 <= con i) -> 0 <= qp -> 0 <= rqp ->
  carved_within base (dims_size E d dyn cost con qp rqp) (blocks (dims_assign E d dyn cost con qp rqp) base).
Proof. intros. eapply spec_any. apply dims_fits; assumption. Qed.

Lemma all_aligned E d o base : env_ok E -> dims_ok d ->
  Forall aligned (blocks (in_assign E d) base) /\
  Forall aligned (blocks (out_assign E d) base) /\
  Forall aligned (blocks (opts_assign E d) base) /\
  Forall aligned (blocks (res_assign E d) base) /\
  Forall aligned (blocks (mem_assign E d o) base) /\
  (base mod 8 = 0 -> Forall aligned (blocks (config_assign E d) base)) /\
  (base mod 8 = 0 -> Forall aligned (blocks (ws_assign E d o) base)).
Proof.
  intros HE Hd. repeat split; intros; try (eapply spec_al1;
   first [apply in_fits|apply out_fits|apply opts_fits|apply res_fits|apply mem_fits]; assumption).
  - eapply spec_al; [apply config_fits|]; assumption.
  - eapply spec_al; [apply ws_fits|]; assumption.
Qed.

Lemma dims_misaligned : exists E d, env_ok E /\ dims_ok d /\
  forall base, ~ Forall aligned (blocks (dims_self_assign E d) base).
Proof.
  exists env64, (dims_ex 20). split; [apply env64_ok|]. split; [apply dims_ex_ok|].
  intros base H. destruct (dims_self_misaligned env64 (dims_ex 20) env64_ok base eq_refl) as (b & Hin & Hk & _ & Hm).
  rewrite Forall_forall in H. specialize (H b Hin). unfold aligned in H. rewrite Hk in H. cbn [kind_align] in H. lia.
Qed.

Lemma zero_refuted : exists E d, env_ok E /\ dims_ok d /\ forall base,
  exists addr len, In (Some (addr, len)) (zero_writes E d base) /\ base + out_size E d < addr + len.
Proof.
  exists env64, (dims_unc 40). split; [apply env64_ok|]. split; [apply dims_unc_ok; lia|].
  intros base. apply stray_overrun. vm_compute. reflexivity.
Qed.
Lemma ux_blocks_in E d base i : (i <= dN d)%nat -> 
  In (mkBlock KDvecMem (ux_at E d base i) (ms_dvec E (nv d i))) (blocks (out_assign E d) base).
Proof. intros Hi. destruct (out_blocks_addresses E d base) as [h ->]. apply in_or_app; right. apply in_or_app; left.
  apply in_map_iff. exists i. split; [reflexivity|apply in_seq; lia]. Qed.
Lemma z_blocks_in E d base i : (i <= dN d)%nat -> 
  In (mkBlock KDvecMem (z_at E d base i) (ms_dvec E (nz d i))) (blocks (out_assign E d) base).
Proof. intros Hi. destruct (out_blocks_addresses E d base) as [h ->]. do 2 (apply in_or_app; right). apply in_or_app; left.
  apply in_map_iff. exists i. split; [reflexivity|apply in_seq; lia]. Qed.
Lemma pi_blocks_in E d base i : (i < dN d)%nat -> 
  In (mkBlock KDvecMem (pi_at E d base i) (ms_dvec E (nx d (S i)))) (blocks (out_assign E d) base).
Proof. intros Hi. destruct (out_blocks_addresses E d base) as [h ->]. do 3 (apply in_or_app; right). apply in_or_app; left.
  apply in_map_iff. exists i. split; [reflexivity|apply in_seq; lia]. Qed.
Lemma lam_blocks_in E d base i : (i <= dN d)%nat -> 
  In (mkBlock KDvecMem (lam_at E d base i) (ms_dvec E (2 * ni d i))) (blocks (out_assign E d) base).
Proof. intros Hi. destruct (out_blocks_addresses E d base) as [h ->]. do 4 (apply in_or_app; right).
  apply in_map_iff. exists i. split; [reflexivity|apply in_seq; lia]. Qed.

(** each iterate vector of n doubles lies in its own carved block *)
Lemma iterate_vectors_carved' E d base a n : env_ok E -> dims_ok d -> In (a, n) (iterate_vectors E d base) ->
  exists b, In b (blocks (out_assign E d) base) /\ blk_kind b = KDvecMem /\ blk_start b = a /\ 8 * n <= blk_len b.
Proof.
  intros HE Hd. unfold iterate_vectors. rewrite in_flat_map. intros (i & Hi & Hin). apply in_seq in Hi.
  pose proof (proj1 Hd) as Hnn.
  assert (Hms : forall m, 0 <= m -> 8 * m <= ms_dvec E m) by (intros m Hm; apply HE; exact Hm).
  apply in_app_or in Hin. destruct Hin as [Hin|Hin].
  - cbn [In] in Hin. destruct Hin as [H|[H|[H|[]]]]; inversion H; subst; clear H.
    + eexists. split; [apply (ux_blocks_in E d base i); lia|]. cbn [blk_start blk_len]. split; [reflexivity|]; split; [reflexivity|apply Hms, Hnn].
    + eexists. split; [apply (z_blocks_in E d base i); lia|]. cbn [blk_start blk_len]. split; [reflexivity|]; split; [reflexivity|apply Hms, Hnn].
    + eexists. split; [apply (lam_blocks_in E d base i); lia|]. cbn [blk_start blk_len]. split; [reflexivity|]; split; [reflexivity|apply Hms].
      destruct (Hnn i) as (_&_&_&_&_&_&H&_); lia.
  - destruct (Nat.ltb_spec i (dN d)) as [Hlt|Hge]; [|destruct Hin].
    destruct Hin as [H|[]]; inversion H; subst; clear H.
    eexists. split; [apply (pi_blocks_in E d base i); lia|]. cbn [blk_start blk_len]. split; [reflexivity|]; split; [reflexivity|apply Hms, Hnn].
Qed.
Lemma iterate_vectors_carved E d base a n : env_ok E -> dims_ok d -> In (a, n) (iterate_vectors E d base) ->
  exists b, In b (blocks (out_assign E d) base) /\ blk_start b = a /\ 8 * n <= blk_len b.
Proof. intros HE Hd Hin. destruct (iterate_vectors_carved' E d base a n HE Hd Hin) as (b & Hb & _ & H). exists b. tauto. Qed.

Lemma zero_partial E d base : env_ok E -> dims_ok d -> nu d 0 <= 2 * ni d 0 ->
  (forall a n, In (a, n) (iterate_vectors E d base) -> In (Some (a, 8 * n)) (zero_writes E d base)) /\
  (forall w, In w (zero_writes E d base) -> exists b m,
      w = Some (blk_start b, m) /\ In b (blocks (out_assign E d) base) /\ m <= blk_len b).
Proof.
  intros HE Hd Hu. split; [intros; apply zero_covers; assumption|].
  intros w Hw. destruct (zero_stays E d base w Hu Hw) as (a & n & m & -> & Hin & Hm).
  destruct (iterate_vectors_carved E d base a n HE Hd Hin) as (b & Hb & <- & Hl).
  exists b, (8 * m). split; [reflexivity|]. split; [exact Hb|lia].
Qed.

(** every write of the zeroing loop is one vector of the iterate, or the stray one *)
Lemma zero_exact E d base w : In w (zero_writes E d base) <->
  (exists a n, In (a, n) (iterate_vectors E d base) /\ w = Some (a, 8 * n)) \/
  w = Some (lam_at E d base 0, 8 * nu d 0).
Proof.
  split.
  - unfold zero_writes. rewrite in_flat_map. intros (i & Hi & Hin). apply in_seq in Hi.
    assert (J : forall x, In x ([(ux_at E d base i, nv d i); (z_at E d base i, nz d i); (lam_at E d base i, 2 * ni d i)]
                     ++ (if Nat.ltb i (dN d) then [(pi_at E d base i, nx d (S i))] else [])) -> In x (iterate_vectors E d base)).
    { intros x Hx. unfold iterate_vectors. apply in_flat_map. exists i. split; [apply in_seq; lia|exact Hx]. }
    destruct (Nat.ltb_spec i (dN d)) as [Hlt|Hge].
    + rewrite zero_stage_lt in Hin by exact Hlt. cbn [In] in Hin. left.
      destruct Hin as [H|[H|[H|[H|[]]]]]; subst w.
      * exists (ux_at E d base i), (nv d i). split; [apply J; cbn; auto|do 2 f_equal; lia].
      * exists (z_at E d base i), (nz d i). split; [apply J; cbn; auto|do 2 f_equal; lia].
      * exists (pi_at E d base i), (nx d (S i)). split; [apply J; cbn; auto 6|do 2 f_equal; lia].
      * exists (lam_at E d base i), (2 * ni d i). split; [apply J; cbn; auto|do 2 f_equal; lia].
    + assert (i = dN d) as -> by lia. rewrite zero_stage_N in Hin. cbn [In] in Hin.
      destruct Hin as [H|[H|[H|[H|[]]]]]; subst w.
      * left. exists (ux_at E d base (dN d)), (nv d (dN d)). split; [apply J; cbn; auto|do 2 f_equal; lia].
      * left. exists (z_at E d base (dN d)), (nz d (dN d)). split; [apply J; cbn; auto|do 2 f_equal; lia].
      * right. do 2 f_equal; lia.
      * left. exists (lam_at E d base (dN d)), (2 * ni d (dN d)). split; [apply J; cbn; auto|do 2 f_equal; lia].
  - intros [(a & n & Hin & ->)| ->]; [apply zero_covers; exact Hin|apply stray_write].
Qed.

(** the vectors of multipliers tile the end of the carve-out *)
Lemma lam_tile E d base : forall n x, (n <= S (dN d))%nat -> lam_at E d base 0 <= x < lam_at E d base n ->
  exists i, (i < n)%nat /\ lam_at E d base i <= x < lam_at E d base i + ms_dvec E (2 * ni d i).
Proof.
  induction n as [|n IH]; intros x Hn Hx; [lia|].
  assert (St : lam_at E d base (S n) = lam_at E d base n + ms_dvec E (2 * ni d n)) by (unfold lam_at; cbn [zsum]; lia).
  destruct (Z.lt_ge_cases x (lam_at E d base n)) as [H|H].
  - destruct (IH x ltac:(lia) ltac:(lia)) as (i & Hi & Hr). exists i. split; [lia|exact Hr].
  - exists n. split; [lia|lia].
Qed.
Lemma zsum_nonneg_le n m f : (forall i, 0 <= f i) -> (n <= m)%nat -> zsum n f <= zsum m f.
Proof. intros Hf. induction 1 as [|m H IH]; [lia|]. cbn [zsum]. pose proof (Hf m). lia. Qed.

Lemma out_data_below E d base x : env_ok E -> dims_ok d -> owned E d base x -> x < lam_at E d base (S (dN d)).
Proof.
  intros HE Hd (b & Hb & Hk & Hr).
  pose proof (proj1 Hd) as Hnn.
  assert (Hms : forall m, 0 <= m -> 0 <= ms_dvec E m).
  { intros m Hm. destruct HE as (_&_&V&_). specialize (V m Hm). lia. }
  assert (P1 : forall i, 0 <= ms_dvec E (nv d i)) by (intros i; apply Hms, Hnn).
  assert (P2 : forall i, 0 <= ms_dvec E (nz d i)) by (intros i; apply Hms, Hnn).
  assert (P3 : forall i, 0 <= ms_dvec E (nx d (S i))) by (intros i; apply Hms, Hnn).
  assert (P4 : forall i, 0 <= ms_dvec E (2 * ni d i)).
  { intros i; apply Hms. destruct (Hnn i) as (_&_&_&_&_&_&H&_); lia. }
  assert (Sn : forall n f, (forall i, 0 <= f i) -> 0 <= zsum n f).
  { intros n f Hf. change 0 with (zsum 0 f). apply zsum_nonneg_le; [exact Hf|lia]. }
  assert (Q1 := Sn (S (dN d)) _ P2). assert (Q2 := Sn (dN d) _ P3). assert (Q3 := Sn (S (dN d)) _ P4). cbv beta in Q1, Q2, Q3.
  assert (Dm : out_mem_at E d base <= ux_at E d base (S (dN d))) by (unfold ux_at; pose proof (Sn (S (dN d)) _ P1); cbv beta in *; lia).
  assert (Dz : ux_at E d base (S (dN d)) <= z_at E d base (S (dN d))) by (unfold z_at; lia).
  assert (Dp : z_at E d base (S (dN d)) <= pi_at E d base (dN d)) by (unfold pi_at; lia).
  assert (Dl : pi_at E d base (dN d) <= lam_at E d base (S (dN d))) by (unfold lam_at; lia).
  destruct (out_blocks_addresses' E d base) as (h & Eh & Kh). rewrite Eh in Hb.
  apply in_app_or in Hb. destruct Hb as [Hb|Hb]; [exfalso; apply (Kh b Hb Hk)|].
  repeat (apply in_app_or in Hb; destruct Hb as [Hb|Hb]); apply in_map_iff in Hb; destruct Hb as (i & <- & Hi);
    apply in_seq in Hi; cbn [blk_start blk_len] in Hr.
  - assert (ux_at E d base (S i) <= ux_at E d base (S (dN d))).
    { unfold ux_at. pose proof (zsum_nonneg_le (S i) (S (dN d)) _ P1 ltac:(lia)). cbv beta in *. lia. }
    assert (ux_at E d base (S i) = ux_at E d base i + ms_dvec E (nv d i)) by (unfold ux_at; cbn [zsum]; lia). lia.
  - assert (z_at E d base (S i) <= z_at E d base (S (dN d))).
    { unfold z_at. pose proof (zsum_nonneg_le (S i) (S (dN d)) _ P2 ltac:(lia)). cbv beta in *. lia. }
    assert (z_at E d base (S i) = z_at E d base i + ms_dvec E (nz d i)) by (unfold z_at; cbn [zsum]; lia). lia.
  - assert (pi_at E d base (S i) <= pi_at E d base (dN d)).
    { unfold pi_at. pose proof (zsum_nonneg_le (S i) (dN d) _ P3 ltac:(lia)). cbv beta in *. lia. }
    assert (pi_at E d base (S i) = pi_at E d base i + ms_dvec E (nx d (S i))) by (unfold pi_at; cbn [zsum]; lia). lia.
  - assert (lam_at E d base (S i) <= lam_at E d base (S (dN d))).
    { unfold lam_at. pose proof (zsum_nonneg_le (S i) (S (dN d)) _ P4 ltac:(lia)). cbv beta in *. lia. }
    assert (lam_at E d base (S i) = lam_at E d base i + ms_dvec E (2 * ni d i)) by (unfold lam_at; cbn [zsum]; lia). lia.
Qed.

Lemma some_pair (a b c e : Z) : Some (a, b) = Some (c, e) -> a = c /\ b = e.
Proof. intros H. inversion H. auto. Qed.
Lemma zero_inside E d base : env_ok E -> dims_ok d ->
  (forall x, touched E d base x -> owned E d base x) <->
  8 * nu d 0 <= zsum (S (dN d)) (fun i => ms_dvec E (2 * ni d i)).
Proof.
  intros HE Hd. split.
  - intros H. destruct (Z.le_gt_cases (8 * nu d 0) (zsum (S (dN d)) (fun i => ms_dvec E (2 * ni d i)))) as [L|G]; [exact L|exfalso].
    assert (B := out_data_below E d base (lam_at E d base 0 + 8 * nu d 0 - 1) HE Hd).
    assert (0 <= zsum (S (dN d)) (fun i => ms_dvec E (2 * ni d i))).
    { change 0 with (zsum 0 (fun i => ms_dvec E (2 * ni d i))). apply zsum_nonneg_le; [|lia].
      intros i. destruct HE as (_&_&V&_). destruct (proj1 Hd i) as (_&_&_&_&_&_&Hi&_). specialize (V (2 * ni d i) ltac:(lia)). lia. }
    assert (lam_at E d base (S (dN d)) = lam_at E d base 0 + zsum (S (dN d)) (fun i => ms_dvec E (2 * ni d i))).
    { unfold lam_at. cbn [zsum]. lia. }
    assert (lam_at E d base 0 + 8 * nu d 0 - 1 < lam_at E d base (S (dN d))); [|lia].
    apply B, H. exists (lam_at E d base 0), (8 * nu d 0). split; [apply stray_write|lia].
  - intros L x (a & l & Hw & Hx). apply zero_exact in Hw. destruct Hw as [(a' & n & Hin & Ew)|Ew];
      [assert (a = a' /\ l = 8 * n) as [-> ->] by (apply some_pair; exact Ew)
      |assert (a = lam_at E d base 0 /\ l = 8 * nu d 0) as [-> ->] by (apply some_pair; exact Ew)].
    + destruct (iterate_vectors_carved' E d base a' n HE Hd Hin) as (b & Hb & Kb & <- & Hl).
      exists b. split; [exact Hb|]. split; [exact Kb|lia].
    + assert (lam_at E d base (S (dN d)) = lam_at E d base 0 + zsum (S (dN d)) (fun i => ms_dvec E (2 * ni d i))).
      { unfold lam_at. cbn [zsum]. lia. }
      destruct (lam_tile E d base (S (dN d)) x ltac:(lia) ltac:(lia)) as (i & Hi & Hr).
      eexists. split; [apply (lam_blocks_in E d base i); lia|]. split; [reflexivity|exact Hr].
Qed.
