(** The output loops of the DAQP interface in closed form. *)
From Coq Require Import ZArith List Bool Lia Reals Lra Arith.
From Verif Require Import Arith Vec LinModel RSum DenseModel QpoModel DaqpModel DenseSpec DaqpSpec DenseProofs StackProofs QpoProofs QpoKkt DaqpProofs.
Import ListNotations.
Open Scope R_scope.

(** * Multipliers of the working set *)
Section WS.
Variables (d : ddims) (sc : vecR).
Definition wrun (ws : list (nat * R)) (lam pi : vecR) : vecR * vecR := fold_left (ws_step (A := real) d sc) ws (lam, pi).
Lemma wrun_cons i l ws lam pi : wrun ((i, l) :: ws) lam pi = if (i <? drows d)%nat then wrun ws (if Rleb 0 (l * sc i) then vset (A := real) lam (drows d + i) (l * sc i) else vset (A := real) lam i (- (l * sc i))) pi else wrun ws lam (vset (A := real) pi (i - drows d) (l * sc i)).
Proof. unfold wrun. cbn [fold_left]. unfold ws_step at 2. cbn [fst snd]. fold (drows d). destruct (Nat.ltb_spec i (drows d)); [reflexivity|]. replace (i - dnb d - dng d)%nat with (i - drows d)%nat by (unfold drows; lia). reflexivity. Qed.
Lemma wl_out ws j : ~ In j (map fst ws) -> ws_lam ws j = 0.
Proof. induction ws as [|[i l] ws IH]; [reflexivity|]. cbn [map In fst ws_lam fold_right]. intros N. fold (ws_lam ws j). destruct (Nat.eqb_spec i j); [tauto|]. apply IH. tauto. Qed.
Lemma ws_out ws : forall lam pi k, ~ In k (map fst ws) -> let s := wrun ws lam pi in
  ((k < drows d)%nat -> fst s k = lam k /\ fst s (drows d + k)%nat = lam (drows d + k)%nat) /\ ((drows d <= k)%nat -> snd s (k - drows d)%nat = pi (k - drows d)%nat).
Proof.
  induction ws as [|[i l] ws IH]; intros lam pi k N; [split; [intros _; split; reflexivity|intros _; reflexivity]|]. cbn [map In fst] in N. rewrite wrun_cons.  destruct (Nat.ltb_spec i (drows d)) as [L|L].
  - match goal with |- context [wrun ws ?a ?b] => destruct (IH a b k ltac:(tauto)) as [I1 I2] end. split; [|exact I2]. intros H. destruct (I1 H) as [E1 E2]. cbv zeta in *. rewrite E1, E2.
    destruct (Rleb _ _); rewrite !vs_ne by (try lia; intros E; apply N; left; lia); split; reflexivity.
  - match goal with |- context [wrun ws ?a ?b] => destruct (IH a b k ltac:(tauto)) as [I1 I2] end. split; [exact I1|]. intros H. cbv zeta in *. rewrite I2 by exact H. apply vs_ne. intros E. apply N. left. unfold drows in *. lia.
Qed.
Lemma ws_slack ws : forall lam pi e, (forall x, In x ws -> True) -> fst (wrun ws lam pi) (2 * drows d + e)%nat = lam (2 * drows d + e)%nat.
Proof.
  induction ws as [|[i l] ws IH]; intros lam pi e _; [reflexivity|]. rewrite wrun_cons. 
  destruct (Nat.ltb_spec i (drows d)) as [L|L]; rewrite IH by auto; [|reflexivity]. destruct (Rleb _ _); apply vs_ne; lia.
Qed.
Lemma ws_in ws : forall lam pi, NoDup (map fst ws) -> (forall k, (k < 2 * drows d)%nat -> lam k = 0) -> let s := wrun ws lam pi in
  (forall k, (k < drows d)%nat -> fst s k = Rmax 0 (- (ws_lam ws k * sc k)) /\ fst s (drows d + k)%nat = Rmax 0 (ws_lam ws k * sc k)) /\
  (forall k, (drows d <= k)%nat -> In k (map fst ws) -> snd s (k - drows d)%nat = ws_lam ws k * sc k).
Proof.
  cut (forall lam pi, NoDup (map fst ws) -> let s := wrun ws lam pi in
    (forall k, (k < drows d)%nat -> In k (map fst ws) -> lam k = 0 -> lam (drows d + k)%nat = 0 -> fst s k = Rmax 0 (- (ws_lam ws k * sc k)) /\ fst s (drows d + k)%nat = Rmax 0 (ws_lam ws k * sc k)) /\
    (forall k, (drows d <= k)%nat -> In k (map fst ws) -> snd s (k - drows d)%nat = ws_lam ws k * sc k)).
  - intros C lam pi ND H0. destruct (C lam pi ND) as [C1 C2]. split; [|exact C2]. intros k Hk. destruct (in_dec Nat.eq_dec k (map fst ws)) as [I|N]; [apply C1; [exact Hk|exact I|apply H0; lia|apply H0; lia]|].
    destruct (ws_out ws lam pi k N) as [O _]. destruct (O Hk) as [E1 E2]. cbv zeta. rewrite E1, E2, (wl_out ws k N), !H0 by lia. rewrite Rmult_0_l, Ropp_0. unfold Rmax. destruct (Rle_dec 0 0); split; reflexivity.
  - induction ws as [|[i l] ws IH]; intros lam pi ND; [split; intros k _ []|]. cbn [map fst] in ND. apply NoDup_cons_iff in ND. destruct ND as [Ni ND]. rewrite wrun_cons.  cbn [map In fst ws_lam fold_right snd]. change (fold_right (fun e a => if (fst e =? ?k)%nat then snd e else a) 0 ws) with (ws_lam ws k).
    destruct (Nat.ltb_spec i (drows d)) as [L|L].
    + match goal with |- context [wrun ws ?a ?b] => set (lam' := a) end. destruct (IH lam' pi ND) as [I1 I2]. split.
      * intros k Hk HI Z1 Z2. fold (ws_lam ws k). destruct (Nat.eqb_spec i k) as [->|Nk].
        -- destruct (ws_out ws lam' pi k Ni) as [O _]. destruct (O Hk) as [E1 E2]. cbv zeta in *. rewrite E1, E2. unfold lam'. destruct (rmax_cases (l * sc k)) as [(C & -> & ->)|[(C & -> & ->)|(C & -> & ->)]].
           ++ destruct (Rleb_spec 0 (l * sc k)); [|lra]. rewrite vs_eq, vs_ne by lia. auto.
           ++ destruct (Rleb_spec 0 (l * sc k)); [lra|]. rewrite vs_eq, vs_ne by lia. auto.
           ++ destruct (Rleb_spec 0 (l * sc k)); [|lra]. rewrite vs_eq, vs_ne by lia. auto.
        -- destruct HI as [HI|HI]; [contradiction|]. apply I1; [exact Hk|exact HI| |]; unfold lam'; destruct (Rleb _ _); rewrite vs_ne by lia; assumption.
      * intros k Hk HI. fold (ws_lam ws k). destruct (Nat.eqb_spec i k) as [->|Nk]; [lia|]. destruct HI as [HI|HI]; [contradiction|]. apply I2; assumption.
    + match goal with |- context [wrun ws ?a ?b] => set (pi' := b) end. destruct (IH lam pi' ND) as [I1 I2]. split.
      * intros k Hk HI Z1 Z2. fold (ws_lam ws k). destruct (Nat.eqb_spec i k) as [->|Nk]; [lia|]. destruct HI as [HI|HI]; [contradiction|]. apply I1; assumption.
      * intros k Hk HI. fold (ws_lam ws k). destruct (Nat.eqb_spec i k) as [->|Nk].
        -- destruct (ws_out ws lam pi' k Ni) as [_ O]. cbv zeta in *. rewrite O by exact Hk. unfold pi'. apply vs_eq.
        -- destruct HI as [HI|HI]; [contradiction|]. apply I2; assumption.
Qed.
End WS.

(** * Slacks *)
Section SL.
Variables (d : ddims) (q : rdqp) (m : rdmem) (s0 : fill_st real).
Let ix := m_idxs m.
Hypothesis Hix : forall i, (i < dns d)%nat -> (ix i < drows d)%nat.
Hypothesis inj : forall i j, (i < dns d)%nat -> (j < dns d)%nat -> ix i = ix j -> i = j.
Hypothesis Hb : forall i, (i < dnb d)%nat -> (dq_idxb q i < dnv d)%nat.
Let ft n := loop n (slack_step (A := real) d q m) s0.
Definition f_lo i := fs_lo s0 (ix i) - (m_zl m i - w_dls m (ix i) * w_scal m (ix i)) / m_Zl m i.
Definition f_up i := fs_up s0 (ix i) + (m_zu m i - w_dus m (ix i) * w_scal m (ix i)) / m_Zu m i.
Definition f_sl i := Rmax (m_dls m i) (f_lo i - dlin d q (fs_v s0) (ix i)).
Definition f_su i := Rmax (m_dus m i) (dlin d q (fs_v s0) (ix i) - f_up i).
Lemma ft_S n : ft (S n) = slack_step (A := real) d q m n (ft n). Proof. reflexivity. Qed.
Lemma ft_bound n k : (n <= dns d)%nat -> (forall i, (i < n)%nat -> ix i <> k) -> fs_lo (ft n) k = fs_lo s0 k /\ fs_up (ft n) k = fs_up s0 k.
Proof.
  induction n as [|n IH]; intros H Hk; [split; reflexivity|]. destruct (IH ltac:(lia) ltac:(intros; apply Hk; lia)) as [I1 I2]. rewrite ft_S. unfold slack_step. cbn [fs_lo fs_up]. assert (k <> ix n) by (intros E; apply (Hk n); [lia|symmetry; exact E]).
  unfold ix in *. rewrite !vs_ne by assumption. auto.
Qed.
Lemma ft_v n r : (n <= dns d)%nat -> (r < dnv d)%nat -> fs_v (ft n) r = fs_v s0 r.
Proof. intros H Hr. induction n as [|n IH]; [reflexivity|]. rewrite ft_S. unfold slack_step. cbn [fs_v]. rewrite !vs_ne by lia. apply IH. lia. Qed.
Lemma ft_lam n k : (n <= dns d)%nat -> (k < 2 * drows d)%nat -> fs_lam (ft n) k = fs_lam s0 k.
Proof. intros H Hr. induction n as [|n IH]; [reflexivity|]. rewrite ft_S. unfold slack_step. cbn [fs_lam]. unfold drows in *. rewrite !vs_ne by lia. apply IH. lia. Qed.
Lemma mvt_sum n (M : matR) (x : vecR) j : mvt (A := real) n M x j = sum n (fun r => M r j * x r).
Proof. unfold mvt. rewrite vsum_sum. reflexivity. Qed.
Lemma c_dlin n k : (n <= dns d)%nat -> (k < drows d)%nat -> (if (k <? dnb d)%nat then fs_v (ft n) (dq_idxb q k) else mvt (A := real) (dnv d) (dq_C q) (fs_v (ft n)) (k - dnb d)) = dlin d q (fs_v s0) k.
Proof.
  intros H Hk. unfold dlin, dcoef. destruct (Nat.ltb_spec k (dnb d)) as [L|L].
  - rewrite ft_v by (try lia; apply Hb; lia). rewrite (sum_one _ (dq_idxb q k)); [rewrite Nat.eqb_refl; lra|apply Hb; exact L|]. intros r _ N. destruct (Nat.eqb_spec (dq_idxb q k) r); [congruence|lra].
  - rewrite mvt_sum. apply sum_ext. intros r Hr. rewrite ft_v by lia. reflexivity.
Qed.
Lemma ft_in n i : (n <= dns d)%nat -> (i < n)%nat ->
  fs_v (ft n) (dnv d + i)%nat = f_sl i /\ fs_v (ft n) (dnv d + (dns d + i))%nat = f_su i /\
  fs_lam (ft n) (2 * drows d + i)%nat = m_Zl m i * f_sl i + m_zl m i - fs_lam s0 (ix i) /\ fs_lam (ft n) (2 * drows d + (dns d + i))%nat = m_Zu m i * f_su i + m_zu m i - fs_lam s0 (drows d + ix i)%nat.
Proof.
  induction n as [|n IH]; intros H Hi; [lia|]. rewrite ft_S. unfold slack_step. cbn [fs_v fs_lam]. fold (ix n). destruct (Nat.eq_dec i n) as [->|N].
  - destruct (ft_bound n (ix n) ltac:(lia)) as [B1 B2]; [intros j Hj E; apply inj in E; lia|]. rewrite c_dlin by (try lia; apply Hix; lia). rewrite !vs_eq, B1, B2, !nmax_real. fold drows. 
    assert (Hk := Hix n ltac:(lia)). assert (Ed : (dnb d + dng d = drows d)%nat) by reflexivity. rewrite Ed.
    replace (dnv d + (dns d + n))%nat with (dnv d + dns d + n)%nat by lia. replace (2 * drows d + (dns d + n))%nat with (2 * drows d + dns d + n)%nat by lia. rewrite !vs_eq. rewrite !vs_ne by lia. rewrite !vs_eq.
    rewrite !ft_lam by lia. replace (ix n + dnb d + dng d)%nat with (drows d + ix n)%nat by (unfold drows; lia).
    rewrite (vs_ne _ _ (drows d + ix n)) by lia. rewrite ft_lam by lia. rewrite (vs_ne _ _ (2 * drows d + n)) by lia. rewrite vs_eq.
    unfold f_sl, f_su, f_lo, f_up. cbn [num nadd nsub nmul ndiv real]. auto.
  - destruct (IH ltac:(lia) ltac:(lia)) as (I1 & I2 & I3 & I4). assert (Ed : (dnb d + dng d = drows d)%nat) by reflexivity. rewrite Ed. rewrite !vs_ne by lia. auto.
Qed.
End SL.
