(** Closed forms of the quantities of an implicit step, over the reals. *)
From Coq Require Import ZArith List Bool Arith Lia Reals Lra.
From Coquelicot Require Import Coquelicot.
From Verif Require Import Arith Vec LinModel CollModel RSum IrkModel.
Import ListNotations.
Open Scope R_scope.

Lemma sum_block n m (f : nat -> R) : sum (n * m) f = sum n (fun j => sum m (fun c => f (j * m + c)%nat)).
Proof.
  induction n as [|n IH]; [reflexivity|]. rewrite sum_S, <- IH. replace (S n * m)%nat with (n * m + m)%nat by lia. rewrite sum_split. reflexivity.
Qed.
Lemma inblk_blk i j n q : (q < n)%nat -> inblk (i * n) n (j * n + q) = (j =? i)%nat.
Proof.
  intros Hq. unfold inblk. destruct (Nat.eqb_spec j i) as [->|N].
  - rewrite (proj2 (Nat.leb_le _ _)), (proj2 (Nat.ltb_lt _ _)) by lia. reflexivity.
  - destruct (Nat.leb_spec (i * n) (j * n + q)) as [L|L]; [|reflexivity]. cbn. apply Nat.ltb_ge.
    assert (i < j)%nat by (destruct (Nat.lt_ge_cases i j); [assumption|]; assert (j < i)%nat by lia; assert (S j * n <= i * n)%nat by (apply Nat.mul_le_mono_r; lia); lia).
    assert (S i * n <= j * n)%nat by (apply Nat.mul_le_mono_r; lia). lia.
Qed.
Lemma inblk_in o n k : inblk o n k = true <-> (o <= k < o + n)%nat.
Proof. unfold inblk. rewrite andb_true_iff, Nat.leb_le, Nat.ltb_lt. tauto. Qed.
Lemma inblk_out o n k : (k < o \/ o + n <= k)%nat -> inblk o n k = false.
Proof. intros H. destruct (inblk o n k) eqn:E; [|reflexivity]. apply inblk_in in E. lia. Qed.
Lemma blk_lt i ns q n : (i < ns)%nat -> (q < n)%nat -> (i * n + q < ns * n)%nat.
Proof. intros. assert (S i * n <= ns * n)%nat by (apply Nat.mul_le_mono_r; lia). lia. Qed.
Lemma blk_of k n ns : (k < ns * n)%nat -> exists i q, (i < ns)%nat /\ (q < n)%nat /\ k = (i * n + q)%nat.
Proof.
  intros H. assert (n <> 0)%nat by (intros ->; lia). exists (k / n)%nat, (k mod n)%nat. pose proof (Nat.div_mod k n ltac:(assumption)). pose proof (Nat.mod_upper_bound k n ltac:(assumption)).
  split; [apply Nat.div_lt_upper_bound; lia|]. split; [assumption|]. lia.
Qed.
Lemma blk_sub i q n : (i * n + q - i * n)%nat = q.
Proof. lia. Qed.
Lemma loop_add {B} n (g : nat -> B -> R) (step : nat -> (B -> R) -> B -> R) (x : B -> R) (k : B) :
  (forall j y, (j < n)%nat -> step j y k = y k + g j k) -> loop n step x k = x k + sum n (fun j => g j k).
Proof.
  intros H. induction n as [|n IH]; cbn [loop]; [cbn; lra|]. rewrite H by lia. rewrite IH by (intros; apply H; lia). rewrite sum_S. lra.
Qed.
Lemma loop_put {B} n (i : nat) (step : nat -> (B -> R) -> B -> R) (x : B -> R) (k : B) v : (i < n)%nat ->
  (forall y, step i y k = v) -> (forall j y, (j < n)%nat -> j <> i -> step j y k = y k) -> loop n step x k = v.
Proof.
  intros Hi H1 H2. induction n as [|n IH]; [lia|]. cbn [loop]. destruct (Nat.eq_dec i n) as [->|N]; [apply H1|].
  rewrite H2 by lia. apply IH; [lia|]. intros; apply H2; lia.
Qed.

Lemma loop_add2 n (g : nat -> R) (step : nat -> matR -> matR) (x : matR) a b :
  (forall j y, (j < n)%nat -> step j y a b = y a b + g j) -> loop n step x a b = x a b + sum n g.
Proof.
  intros H. induction n as [|n IH]; cbn [loop]; [cbn; lra|]. rewrite H by lia. rewrite IH by (intros; apply H; lia). rewrite sum_S. lra.
Qed.
Lemma loop_put2 n (i : nat) (step : nat -> matR -> matR) (x : matR) a b v : (i < n)%nat ->
  (forall y, step i y a b = v) -> (forall j y, (j < n)%nat -> j <> i -> step j y a b = y a b) -> loop n step x a b = v.
Proof.
  intros Hi H1 H2. induction n as [|n IH]; [lia|]. cbn [loop]. destruct (Nat.eq_dec i n) as [->|N]; [apply H1|].
  rewrite H2 by lia. apply IH; [lia|]. intros; apply H2; lia.
Qed.

Section S.
Variable M : irk_model real.
Variable o : irk_opts real.
Variable inp : irk_in real.
Notation nx := (o_nx o). Notation nu := (o_nu o). Notation nz := (o_nz o). Notation np := (o_np o). Notation ns := (o_ns o).
Notation nf := (nx + nz)%nat.
Notation nK := ((nx + nz) * ns)%nat.
Notation h := (step o inp).
Lemma gead_real (m n : nat) (al : R) (X Y : matR) bi bj r c :
  gead (A := real) m n al X Y bi bj r c = Y r c + (if inblk bi m r && inblk bj n c then al * X (r - bi)%nat (c - bj)%nat else 0).
Proof. unfold gead. destruct (inblk bi m r && inblk bj n c); cbn; lra. Qed.
Lemma stage_x_val (x K : vecR) i r : (r < nx)%nat -> stage_x o inp x K i r = x r + h * sum ns (fun j => o_A o i j * K (j * nx + r)%nat).
Proof.
  intros Hr. unfold stage_x. rewrite (loop_add (B := nat) ns (fun j r => o_A o i j * h * K (j * nx + r)%nat)).
  - f_equal. rewrite <- sum_scal. apply sum_ext. intros. lra.
  - intros j y _. cbv zeta. rewrite (proj2 (Nat.ltb_lt _ _) Hr). cbn. lra.
Qed.
Lemma residual_val ss (x K : vecR) i q : (i < ns)%nat -> (q < nf)%nat -> residual M o inp ss x K (i * nf + q) = at_stage o inp (m_f M) ss x K i q.
Proof.
  intros Hi Hq. unfold residual. apply (loop_put (B := nat) ns i); [exact Hi| |].
  - intros y. cbv zeta. rewrite inblk_blk, Nat.eqb_refl, blk_sub by exact Hq. reflexivity.
  - intros j y _ N. cbv zeta. rewrite inblk_blk by exact Hq. rewrite (proj2 (Nat.eqb_neq _ _)) by lia. reflexivity.
Qed.

Lemma dG_dxu_val ss (x K : vecR) i q c : (i < ns)%nat -> (q < nf)%nat -> (c < nx + nu)%nat ->
  dG_dxu M o inp ss x K (i * nf + q)%nat c = if (c <? nx)%nat then at_stage o inp (m_fx M) ss x K i q c else at_stage o inp (m_fu M) ss x K i q (c - nx)%nat.
Proof.
  intros Hi Hq Hc. unfold dG_dxu. apply (loop_put2 ns i); [exact Hi| |].
  - intros D. unfold gecp. rewrite inblk_blk, Nat.eqb_refl, blk_sub, Nat.sub_0_r by exact Hq. destruct (Nat.ltb_spec c nx) as [L|L].
    + rewrite (inblk_out nx nu c) by lia. rewrite (proj2 (inblk_in 0 nx c)) by lia. reflexivity.
    + rewrite (proj2 (inblk_in nx nu c)) by lia. reflexivity.
  - intros j D _ N. unfold gecp. rewrite inblk_blk by exact Hq. rewrite (proj2 (Nat.eqb_neq _ _)) by lia. reflexivity.
Qed.
Lemma dG_dK_sum ss (x K : vecR) i q c : (i < ns)%nat -> (q < nf)%nat ->
  dG_dK M o inp ss x K (i * nf + q)%nat c =
    sum ns (fun j => (if inblk (j * nx) nx c then o_A o i j * h * at_stage o inp (m_fx M) ss x K i q (c - j * nx)%nat else 0) +
      (if (j =? i)%nat then (if inblk (j * nx) nx c then at_stage o inp (m_fk M) ss x K i q (c - j * nx)%nat else 0) +
         (if inblk (nx * ns + j * nz) nz c then at_stage o inp (m_fz M) ss x K i q (c - (nx * ns + j * nz))%nat else 0) else 0)).
Proof.
  intros Hi Hq. unfold dG_dK.
  rewrite (loop_add2 ns (fun k => if (k =? i)%nat then sum ns (fun j => (if inblk (j * nx) nx c then o_A o i j * h * at_stage o inp (m_fx M) ss x K i q (c - j * nx)%nat else 0) +
      (if (j =? i)%nat then (if inblk (j * nx) nx c then at_stage o inp (m_fk M) ss x K i q (c - j * nx)%nat else 0) +
         (if inblk (nx * ns + j * nz) nz c then at_stage o inp (m_fz M) ss x K i q (c - (nx * ns + j * nz))%nat else 0) else 0)) else 0)).
  - rewrite (sum_one ns i); [|exact Hi|intros k _ N; rewrite (proj2 (Nat.eqb_neq k i) N); reflexivity]. rewrite Nat.eqb_refl. cbn. lra.
  - intros k D _. rewrite (loop_add2 ns (fun j => if (k =? i)%nat then (if inblk (j * nx) nx c then o_A o i j * h * at_stage o inp (m_fx M) ss x K i q (c - j * nx)%nat else 0) +
      (if (j =? i)%nat then (if inblk (j * nx) nx c then at_stage o inp (m_fk M) ss x K i q (c - j * nx)%nat else 0) +
         (if inblk (nx * ns + j * nz) nz c then at_stage o inp (m_fz M) ss x K i q (c - (nx * ns + j * nz))%nat else 0) else 0) else 0)).
    + f_equal. destruct (k =? i)%nat; [reflexivity|]. apply sum_0.
    + intros j E _. cbv zeta. destruct (Nat.eqb_spec k i) as [->|N].
      * destruct (j =? i)%nat; rewrite !gead_real, inblk_blk, Nat.eqb_refl, blk_sub by exact Hq; cbn [andb];
          destruct (inblk (j * nx) nx c), (inblk (nx * ns + j * nz) nz c); cbn; lra.
      * assert (E0 : inblk (k * nf) nf (i * nf + q) = false) by (rewrite inblk_blk by exact Hq; apply Nat.eqb_neq; lia).
        destruct (j =? k)%nat; rewrite !gead_real, E0; cbn [andb]; lra.
Qed.
Lemma dG_dK_x ss (x K : vecR) i q j c : (i < ns)%nat -> (q < nf)%nat -> (j < ns)%nat -> (c < nx)%nat ->
  dG_dK M o inp ss x K (i * nf + q)%nat (j * nx + c)%nat =
    o_A o i j * h * at_stage o inp (m_fx M) ss x K i q c + (if (j =? i)%nat then at_stage o inp (m_fk M) ss x K i q c else 0).
Proof.
  intros Hi Hq Hj Hc. rewrite dG_dK_sum by assumption. pose proof (blk_lt j ns c nx Hj Hc).
  rewrite (sum_one ns j); [|exact Hj|].
  - rewrite inblk_blk, Nat.eqb_refl, blk_sub by exact Hc. rewrite (inblk_out (nx * ns + j * nz)) by lia. destruct (j =? i)%nat; lra.
  - intros k _ N. rewrite inblk_blk by exact Hc. rewrite (proj2 (Nat.eqb_neq j k)) by lia. rewrite (inblk_out (nx * ns + k * nz)) by lia. destruct (k =? i)%nat; lra.
Qed.
Lemma dG_dK_z ss (x K : vecR) i q j c : (i < ns)%nat -> (q < nf)%nat -> (j < ns)%nat -> (c < nz)%nat ->
  dG_dK M o inp ss x K (i * nf + q)%nat (ns * nx + (j * nz + c))%nat = (if (j =? i)%nat then at_stage o inp (m_fz M) ss x K i q c else 0).
Proof.
  intros Hi Hq Hj Hc. rewrite dG_dK_sum by assumption.
  assert (E : forall k, inblk (nx * ns + k * nz) nz (ns * nx + (j * nz + c)) = (j =? k)%nat).
  { intros k. rewrite <- (inblk_blk k j nz c Hc). unfold inblk. f_equal; [apply eq_true_iff_eq; rewrite !Nat.leb_le; lia|apply eq_true_iff_eq; rewrite !Nat.ltb_lt; lia]. }
  rewrite (sum_one ns j); [|exact Hj|].
  - rewrite E, Nat.eqb_refl. rewrite (inblk_out (j * nx)) by (right; assert (S j * nx <= ns * nx)%nat by (apply Nat.mul_le_mono_r; lia); lia).
    replace (ns * nx + (j * nz + c) - (nx * ns + j * nz))%nat with c by lia. destruct (j =? i)%nat; lra.
  - intros k Hk N. rewrite E. rewrite (proj2 (Nat.eqb_neq j k)) by lia.
    rewrite (inblk_out (k * nx)) by (right; assert (S k * nx <= ns * nx)%nat by (apply Nat.mul_le_mono_r; lia); lia). destruct (k =? i)%nat; lra.
Qed.
(** linearization of the stage equation i, row q *)
Definition lin ss (x K : vecR) (i q : nat) (dx dK du : vecR) : R :=
  sum nx (fun c => at_stage o inp (m_fx M) ss x K i q c * (dx c + h * sum ns (fun j => o_A o i j * dK (j * nx + c)%nat))) +
  sum nx (fun c => at_stage o inp (m_fk M) ss x K i q c * dK (i * nx + c)%nat) +
  sum nu (fun c => at_stage o inp (m_fu M) ss x K i q c * du c) +
  sum nz (fun c => at_stage o inp (m_fz M) ss x K i q c * dK (ns * nx + i * nz + c)%nat).
Lemma dG_dK_row ss (x K : vecR) i q (y : vecR) : (i < ns)%nat -> (q < nf)%nat ->
  sum nK (fun k => dG_dK M o inp ss x K (i * nf + q)%nat k * y k) = lin ss x K i q (fun _ => 0) y (fun _ => 0).
Proof.
  intros Hi Hq. replace nK with (ns * nx + ns * nz)%nat by lia. rewrite sum_split, !sum_block. unfold lin.
  rewrite (sum_ext ns _ (fun j => sum nx (fun c => o_A o i j * h * at_stage o inp (m_fx M) ss x K i q c * y (j * nx + c)%nat) +
     (if (j =? i)%nat then sum nx (fun c => at_stage o inp (m_fk M) ss x K i q c * y (i * nx + c)%nat) else 0))).
  2:{ intros j Hj. destruct (Nat.eqb_spec j i) as [->|N].
      - rewrite <- sum_plus. apply sum_ext. intros c Hc. rewrite dG_dK_x, Nat.eqb_refl by assumption. ring.
      - rewrite Rplus_0_r. apply sum_ext. intros c Hc. rewrite dG_dK_x by assumption. rewrite (proj2 (Nat.eqb_neq _ _) N). ring. }
  rewrite sum_plus. rewrite (sum_one ns i (fun j => if (j =? i)%nat then _ else 0)); [|exact Hi|intros k _ N; rewrite (proj2 (Nat.eqb_neq k i) N); reflexivity].
  rewrite Nat.eqb_refl.
  rewrite (sum_one ns i (fun j => sum nz _)); [|exact Hi|].
  2:{ intros k Hk N. apply sum_zero. intros c Hc. rewrite dG_dK_z by assumption. rewrite (proj2 (Nat.eqb_neq k i) N). ring. }
  rewrite (sum_zero nu) by (intros; ring). rewrite sum_swap.
  rewrite (sum_ext nz _ (fun c => at_stage o inp (m_fz M) ss x K i q c * y (ns * nx + i * nz + c)%nat)).
  2:{ intros c Hc. rewrite dG_dK_z by assumption. rewrite Nat.eqb_refl, Nat.add_assoc. reflexivity. }
  rewrite (sum_ext nx (fun j => sum ns _) (fun c => at_stage o inp (m_fx M) ss x K i q c * (0 + h * sum ns (fun j => o_A o i j * y (j * nx + c)%nat)))).
  2:{ intros c Hc. rewrite Rplus_0_l, <- !sum_scal. apply sum_ext. intros j Hj. ring. }
  lra.
Qed.
Lemma dG_dxu_row ss (x K : vecR) i q (dx du : vecR) : (i < ns)%nat -> (q < nf)%nat ->
  sum nx (fun k => dG_dxu M o inp ss x K (i * nf + q)%nat k * dx k) + sum nu (fun k => dG_dxu M o inp ss x K (i * nf + q)%nat (nx + k)%nat * du k) =
  lin ss x K i q dx (fun _ => 0) du.
Proof.
  intros Hi Hq. unfold lin.
  rewrite (sum_ext nx _ (fun c => at_stage o inp (m_fx M) ss x K i q c * (dx c + h * sum ns (fun j => o_A o i j * 0)))).
  2:{ intros c Hc. rewrite dG_dxu_val by lia. rewrite (proj2 (Nat.ltb_lt _ _) Hc). rewrite (sum_zero ns) by (intros; ring). ring. }
  rewrite (sum_ext nu _ (fun c => at_stage o inp (m_fu M) ss x K i q c * du c)).
  2:{ intros c Hc. rewrite dG_dxu_val by lia. rewrite (proj2 (Nat.ltb_ge (nx + c) nx)) by lia. replace (nx + c - nx)%nat with c by lia. reflexivity. }
  rewrite (sum_zero nx (fun c => at_stage o inp (m_fk M) ss x K i q c * 0)), (sum_zero nz) by (intros; ring). lra.
Qed.
Lemma lin_split ss (x K : vecR) i q (dx dK du : vecR) :
  lin ss x K i q dx dK du = lin ss x K i q (fun _ => 0) dK (fun _ => 0) + lin ss x K i q dx (fun _ => 0) du.
Proof.
  unfold lin. rewrite (sum_ext nx _ (fun c => at_stage o inp (m_fx M) ss x K i q c * (0 + h * sum ns (fun j => o_A o i j * dK (j * nx + c)%nat)) +
     at_stage o inp (m_fx M) ss x K i q c * (dx c + h * sum ns (fun j => o_A o i j * 0)))).
  2:{ intros c _. rewrite (sum_zero ns (fun j => o_A o i j * 0)) by (intros; ring). ring. }
  rewrite sum_plus. rewrite (sum_zero nx (fun c => at_stage o inp (m_fk M) ss x K i q c * 0)), (sum_zero nz (fun c => at_stage o inp (m_fz M) ss x K i q c * 0)), (sum_zero nu (fun c => at_stage o inp (m_fu M) ss x K i q c * 0)) by (intros; ring). lra.
Qed.
Lemma add_stages_val n (D S : matR) r c : (r < nx)%nat -> (c < n)%nat -> add_stages o inp n D S r c = S r c - h * sum ns (fun j => o_b o j * D (j * nx + r)%nat c).
Proof.
  intros Hr Hc. unfold add_stages. rewrite (loop_add2 ns (fun j => - h * o_b o j * D (j * nx + r)%nat c)).
  - assert (E : sum ns (fun j => - h * o_b o j * D (j * nx + r)%nat c) = - h * sum ns (fun j => o_b o j * D (j * nx + r)%nat c)).
    { rewrite <- sum_scal. apply sum_ext. intros. apply Rmult_assoc. }
    rewrite E. apply (f_equal (Rplus (S r c))). symmetry. apply Ropp_mult_distr_l.
  - intros j Y _. rewrite gead_real. rewrite (proj2 (inblk_in 0 nx r)), (proj2 (inblk_in 0 n c)) by lia. cbn [andb]. unfold rows. rewrite !Nat.sub_0_r. reflexivity.
Qed.
End S.
