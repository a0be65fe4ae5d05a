(** The adjoint and Hessian sweep of the implicit integrator. *)
From Coq Require Import ZArith List Bool Arith Lia Reals Lra.
From Coquelicot Require Import Coquelicot.
From Verif Require Import Arith Vec LinModel CollModel CollTop RSum BghAdjProofs MeritGradProofs IrkModel IrkSpec IrkProofs IrkSens IrkFwd.
Import ListNotations.
Open Scope R_scope.

(** quadratic form of a symmetric matrix given by its upper part *)
Definition quad (n : nat) (H : matR) (d : vecR) : R := sum n (fun r => sum n (fun c => d r * mirror_u (A := real) H r c * d c)).

Ltac rr := match goal with |- ?a = ?b => change (@eq R a b) end; change (@n1 real) with 1; ring.
Section S.
Variable MM : vecR -> irk_model real.
Variable p : vecR.
Notation M := (MM p).
Variable o : irk_opts real.
Variable inp : irk_in real.
Variable lu_solve lu_solve_t : nat -> matR -> vecR -> vecR.
Notation nx := (o_nx o). Notation nu := (o_nu o). Notation nz := (o_nz o). Notation np := (o_np o). Notation ns := (o_ns o).
Notation nf := (nx + nz)%nat.
Notation nK := ((nx + nz) * ns)%nat.
Notation nv := (2 * nx + nz + nu)%nat.
Notation h := (step o inp).
Notation u := (n_u inp).
Hypothesis HC : irk_consistent MM nx nu nz np.
Variable m : irk_mem real.
Variable F0 : matR.
Notation xs := (xs MM p o inp lu_solve m F0).
Notation Ks := (Ks MM p o inp lu_solve m F0).
Notation Ss := (Ss MM p o inp lu_solve m F0).
Notation dKs := (dKs MM p o inp lu_solve m F0).
Notation tm := (tm o inp).
Notation tangent := (tangent MM p o inp lu_solve m F0).
Notation fwd := (forward M o inp lu_solve m F0).
Notation regular := (regular MM p o inp lu_solve m F0).
Hypothesis LUT : lu_t_ok nK lu_solve_t.

Lemma rec_val N n : (n < N)%nat -> r_x (s_rec (fwd N) n) = xs n /\ r_K (s_rec (fwd N) n) = Ks n /\ r_G (s_rec (fwd N) n) = dG_dxu M o inp n (xs n) (Ks n) /\ r_S (s_rec (fwd N) n) = Ss n /\
  (with_sens o = true -> r_F (s_rec (fwd N) n) = dG_dK M o inp n (xs n) (Ks n) /\ r_dK (s_rec (fwd N) n) = dKs n).
Proof.
  induction N as [|N IH]; intros Hn; [lia|]. destruct (Nat.eq_dec n N) as [->|NE].
  - clear IH. unfold IrkSens.dKs, IrkSens.Ks, IrkSens.xs, IrkSens.Ss. rewrite fwd_S. unfold irk_step. destruct (newton _ _ _ _ _ _ _ _ _ _) as [K F]. cbn [s_rec s_K s_x s_S]. rewrite Nat.eqb_refl. cbn [r_x r_K r_G r_S r_F r_dK].
    repeat (split; [reflexivity|]). intros W. rewrite W. cbn [orb]. split; reflexivity.
  - rewrite fwd_S. unfold irk_step. destruct (newton _ _ _ _ _ _ _ _ _ _) as [K F]. cbn [s_rec]. rewrite (proj2 (Nat.eqb_neq n N) NE). apply IH. lia.
Qed.
(** the multipliers of the stage equations *)
Lemma lamK_row (F : matR) (lam : vecR) c : nonsing nK F -> (c < nK)%nat ->
  sum nK (fun k => F k c * lamK o inp lu_solve_t F lam k) = if (c <? ns * nx)%nat then - h * o_b o (c / nx)%nat * lam (c mod nx)%nat else 0.
Proof.
  intros HF Hc. unfold lamK. rewrite (LUT F _ HF c Hc). destruct (Nat.ltb_spec c (ns * nx)) as [L|L].
  - destruct (blk_of c nx ns L) as [j [r [Hj [Hr ->]]]]. apply (loop_put (B := nat) ns j); [exact Hj| |].
    + intros y. rewrite inblk_blk, Nat.eqb_refl, blk_sub by exact Hr. rewrite Nat.div_add_l, (Nat.div_small r nx), Nat.add_0_r by lia.
      rewrite (Nat.add_comm (j * nx)), Nat.mod_add, (Nat.mod_small r nx) by lia. reflexivity.
    + intros k y _ NE. rewrite inblk_blk by exact Hr. rewrite (proj2 (Nat.eqb_neq j k)) by lia. reflexivity.
  - rewrite (loop_add (B := nat) ns (fun _ _ => 0)); [rewrite sum_0; apply Rplus_0_r|]. intros j y Hj. rewrite (inblk_out (j * nx)); [symmetry; apply Rplus_0_r|].
    right. assert (S j * nx <= ns * nx)%nat by (apply Nat.mul_le_mono_r; lia). lia.
Qed.
Lemma lamK_dk (F : matR) (lam dk : vecR) : nonsing nK F ->
  sum nK (fun k => lamK o inp lu_solve_t F lam k * sum nK (fun c => F k c * dk c)) = - sum nx (fun r => lam r * (h * sum ns (fun j => o_b o j * dk (j * nx + r)%nat))).
Proof.
  intros HF. rewrite sum_lin. rewrite (sum_ext nK _ (fun c => (if (c <? ns * nx)%nat then - h * o_b o (c / nx)%nat * lam (c mod nx)%nat else 0) * dk c)).
  2:{ intros c Hc. f_equal. rewrite <- (lamK_row F lam c HF Hc). apply sum_ext. intros; ring. }
  replace nK with (ns * nx + ns * nz)%nat by lia. rewrite sum_split.
  rewrite (sum_zero (ns * nz)) by (intros k _; destruct (Nat.ltb_spec (ns * nx + k) (ns * nx)); [lia|ring]).
  rewrite Rplus_0_r, sum_block.
  rewrite (sum_ext ns _ (fun j => sum nx (fun r => - (lam r * (h * (o_b o j * dk (j * nx + r)%nat)))))).
  2:{ intros j Hj. apply sum_ext. intros r Hr. pose proof (blk_lt j ns r nx Hj Hr) as L. rewrite (proj2 (Nat.ltb_lt _ _) L).
      rewrite Nat.div_add_l, (Nat.div_small r nx), Nat.add_0_r by lia. rewrite (Nat.add_comm (j * nx)), Nat.mod_add, (Nat.mod_small r nx) by lia. rewrite (Nat.add_comm r). ring. }
  rewrite sum_swap, <- sum_opp. apply sum_ext. intros r _. rewrite sum_opp, !sum_scal. reflexivity.
Qed.
(** one step of the adjoint recursion, for any direction *)
Definition lams n (lam : vecR) : vecR := lamK o inp lu_solve_t (dG_dK M o inp n (xs n) (Ks n)) lam.
Definition pair (lam dx du : vecR) : R := sum nx (fun r => lam r * dx r) + sum nu (fun c => lam (nx + c)%nat * du c).
Lemma back_F N n : (n < N)%nat -> (if o_sens_hess o then r_F (s_rec (fwd N) n) else dG_dK M o inp n (r_x (s_rec (fwd N) n)) (r_K (s_rec (fwd N) n))) = dG_dK M o inp n (xs n) (Ks n).
Proof.
  intros Hn. destruct (rec_val N n Hn) as [-> [-> [_ [_ E]]]]. destruct (o_sens_hess o) eqn:W; [|reflexivity]. apply E. unfold with_sens. rewrite W. apply orb_true_r.
Qed.
Lemma back_G N n : (n < N)%nat -> (if o_sens_hess o then r_G (s_rec (fwd N) n) else dG_dxu M o inp n (r_x (s_rec (fwd N) n)) (r_K (s_rec (fwd N) n))) = dG_dxu M o inp n (xs n) (Ks n).
Proof. intros Hn. destruct (rec_val N n Hn) as [-> [-> [-> [_ E]]]]. destruct (o_sens_hess o); reflexivity. Qed.
Lemma back_lam N n (lam : vecR) (H : matR) k : (n < N)%nat -> (k < nx + nu)%nat ->
  fst (back_step M o inp lu_solve_t n (s_rec (fwd N) n) (lam, H)) k = sum nK (fun r => dG_dxu M o inp n (xs n) (Ks n) r k * lams n lam r) + lam k.
Proof.
  intros Hn Hk. unfold back_step. cbn [fst]. cbv zeta. rewrite back_F, back_G by exact Hn. rewrite (proj2 (Nat.ltb_lt _ _) Hk). fold (lams n lam).
  change (1 * sum nK (fun r => dG_dxu M o inp n (xs n) (Ks n) r k * lams n lam r) + 1 * lam k = sum nK (fun r => dG_dxu M o inp n (xs n) (Ks n) r k * lams n lam r) + lam k). ring.
Qed.
Lemma back_pair N n (lam : vecR) (H : matR) (dx dk du : vecR) : (n < N)%nat -> rk_regular o h M (tm n) (xs n) u (Ks n) ->
  pair (fst (back_step M o inp lu_solve_t n (s_rec (fwd N) n) (lam, H))) dx du =
  pair lam (rk_next o h dx dk) du + sum ns (fun i => sum nf (fun q => lams n lam (i * nf + q)%nat * rk_lin o h M (tm n) (xs n) u (Ks n) i q dx dk du)).
Proof.
  intros Hn HR. pose proof (regular_nonsing MM p o inp HC n (xs n) (Ks n) HR) as HF. unfold pair.
  set (G := dG_dxu M o inp n (xs n) (Ks n)). set (F := dG_dK M o inp n (xs n) (Ks n)) in *. set (l := lams n lam).
  rewrite (sum_ext nx _ (fun r => sum nK (fun k => l k * G k r) * dx r + lam r * dx r)).
  2:{ intros r Hr. rewrite back_lam by lia. fold G l. rewrite (sum_ext nK _ (fun k => l k * G k r)) by (intros; ring). ring. }
  rewrite (sum_ext nu (fun c => fst _ _ * _) (fun c => sum nK (fun k => l k * G k (nx + c)%nat) * du c + lam (nx + c)%nat * du c)).
  2:{ intros r Hr. rewrite back_lam by lia. fold G l. rewrite (sum_ext nK _ (fun k => l k * G k (nx + r)%nat)) by (intros; ring). ring. }
  rewrite !sum_plus, <- sum_lin. rewrite <- (sum_lin nK nu l (fun k c => G k (nx + c)%nat) du).
  assert (E : sum ns (fun i => sum nf (fun q => l (i * nf + q)%nat * rk_lin o h M (tm n) (xs n) u (Ks n) i q dx dk du)) =
     sum nK (fun k => l k * sum nK (fun c => F k c * dk c)) + (sum nK (fun k => l k * sum nx (fun c => G k c * dx c)) + sum nK (fun k => l k * sum nu (fun c => G k (nx + c)%nat * du c)))).
  { rewrite <- !sum_plus. replace nK with (ns * nf)%nat at 1 by lia. rewrite sum_block. apply sum_ext. intros i Hi. apply sum_ext. intros q Hq.
    rewrite rk_lin_split. rewrite <- !(lin_rk MM p o inp HC) by exact Hq. rewrite <- dG_dK_row, <- dG_dxu_row by assumption. fold F G. ring. }
  rewrite E. unfold l at 3. unfold lams. fold F. rewrite lamK_dk by exact HF. unfold rk_next.
  rewrite (sum_ext nx (fun r => lam r * (_ + _)) (fun r => lam r * dx r + lam r * (h * sum ns (fun j => o_b o j * dk (j * nx + r)%nat)))) by (intros; ring). rewrite sum_plus. ring.
Qed.
Lemma back_pair' N n (lam : vecR) (H : matR) (dx dk du lam1 : vecR) (H1 : matR) : (n < N)%nat -> rk_regular o h M (tm n) (xs n) u (Ks n) -> back_step M o inp lu_solve_t n (s_rec (fwd N) n) (lam, H) = (lam1, H1) ->
  pair lam1 dx du = pair lam (rk_next o h dx dk) du + sum ns (fun i => sum nf (fun q => lams n lam (i * nf + q)%nat * rk_lin o h M (tm n) (xs n) u (Ks n) i q dx dk du)).
Proof. intros Hn HR E. pose proof (back_pair N n lam H dx dk du Hn HR) as B. replace lam1 with (fst (lam1, H1)) by reflexivity. rewrite <- B. f_equal. exact (f_equal fst (eq_sym E)). Qed.
Notation bw N n := (backward M o inp lu_solve_t n (s_rec (fwd N))).
Lemma bw_S N n q : bw N (S n) q = bw N n (back_step M o inp lu_solve_t n (s_rec (fwd N) n) q).
Proof. reflexivity. Qed.
Lemma backward_pair N dx dk du : regular N -> tangent N dx dk du (fun _ => 0) -> forall n, (n <= N)%nat -> forall lam H, pair (fst (bw N n (lam, H))) (dx 0%nat) du = pair lam (dx n) du.
Proof.
  intros HR HT. induction n as [|n IH]; intros Hn lam H; [reflexivity|]. rewrite bw_S. destruct (back_step M o inp lu_solve_t n (s_rec (fwd N) n) (lam, H)) as [lam1 H1] eqn:E.
  rewrite IH by lia. pose proof (back_pair' N n lam H (dx n) (dk n) du lam1 H1 ltac:(lia) (HR n ltac:(lia)) E) as BP. rewrite BP. destruct (HT n ltac:(lia)) as [A B].
  rewrite (sum_zero ns).
  - rewrite Rplus_0_r. unfold pair. f_equal. apply sum_ext. intros r Hr. rewrite (B r Hr). reflexivity.
  - intros i Hi. apply sum_zero. intros q Hq. pose proof (A i q Hi Hq) as Z. rewrite (sum_zero np (fun c => _ * 0)) in Z by (intros; ring). rewrite Rplus_0_r in Z. rewrite Z. ring.
Qed.

(** the Hessian contribution of a stage *)
Definition dfull (D : matR) : matR := fun a c => if (a <? 2 * nx + nz)%nat then D a c else if (c =? nx + (a - (2 * nx + nz)))%nat then 1 else 0.
Lemma hess_stage_upper (Hf D H : matR) r c : (r <= c)%nat -> (c < nx + nu)%nat ->
  hess_stage o Hf D H r c = H r c + sum nv (fun a => dfull D a r * sum nv (fun b => Hf a b * dfull D b c)).
Proof.
  intros Hrc Hc.
  set (t := gead (A := real) (2 * nx + nz + nu) nu 1 (fun r c => Hf r (2 * nx + nz + c)%nat) (fun r c => 1 * vsum (A := real) (2 * nx + nz) (fun k => Hf r k * D k c)) 0 nx).
  assert (Et : forall a, (a < nv)%nat -> t a c = sum nv (fun b => Hf a b * dfull D b c)).
  { intros a Ha. unfold t. rewrite gead_real. rewrite (proj2 (inblk_in 0 nv a)) by lia. cbn [andb]. rewrite Nat.sub_0_r.
    change (vsum (A := real) (2 * nx + nz) (fun k => Hf a k * D k c)) with (sum (2 * nx + nz) (fun k => Hf a k * D k c)). rewrite (sum_split (2 * nx + nz) nu (fun b => Hf a b * dfull D b c)).
    apply (f_equal2 Rplus).
    - match goal with |- ?x = ?y => change (@eq R x y) end. etransitivity; [apply Rmult_1_l|]. apply sum_ext. intros b Hb. unfold dfull. rewrite (proj2 (Nat.ltb_lt _ _) Hb). reflexivity.
    - destruct (inblk nx nu c) eqn:E.
      + apply inblk_in in E. rewrite (sum_one nu (c - nx)%nat); [|lia|].
        * unfold dfull. rewrite (proj2 (Nat.ltb_ge _ _)) by lia. replace (nx + (2 * nx + nz + (c - nx) - (2 * nx + nz)))%nat with c by lia. rewrite Nat.eqb_refl. rr.
        * intros b Hb NE. unfold dfull. rewrite (proj2 (Nat.ltb_ge _ _)) by lia. rewrite (proj2 (Nat.eqb_neq c _)) by lia. ring.
      + symmetry. apply sum_zero. intros b Hb. unfold dfull. rewrite (proj2 (Nat.ltb_ge _ _)) by lia.
        rewrite (proj2 (Nat.eqb_neq c _)); [ring|]. intros ->. rewrite (proj2 (inblk_in nx nu _)) in E by lia. discriminate. }
  change (hess_stage o Hf D H r c) with (gead (A := real) nu (nx + nu) 1 (rows (A := real) (2 * nx + nz) t)
     (fun r c => if (r <? nx + nu)%nat && (c <? nx + nu)%nat && (r <=? c)%nat then 1 * H r c + 1 * sum (2 * nx + nz) (fun k => D k r * t k c) else H r c) nx 0 r c). rewrite gead_real. rewrite (proj2 (Nat.ltb_lt r (nx + nu))), (proj2 (Nat.ltb_lt c (nx + nu))), (proj2 (Nat.leb_le r c)) by lia. cbn [andb].
  rewrite (sum_split (2 * nx + nz) nu (fun a => dfull D a r * sum nv (fun b => Hf a b * dfull D b c))).
  assert (E1 : sum (2 * nx + nz) (fun k => D k r * t k c) = sum (2 * nx + nz) (fun a => dfull D a r * sum nv (fun b => Hf a b * dfull D b c))).
  { apply sum_ext. intros a Ha. rewrite Et by lia. unfold dfull at 2. rewrite (proj2 (Nat.ltb_lt _ _) Ha). reflexivity. }
  rewrite E1. clear E1.
  assert (E2 : (if inblk nx nu r && inblk 0 (nx + nu) c then 1 * rows (A := real) (2 * nx + nz) t (r - nx)%nat (c - 0)%nat else 0) = sum nu (fun k => dfull D (2 * nx + nz + k)%nat r * sum nv (fun b => Hf (2 * nx + nz + k)%nat b * dfull D b c))).
  { rewrite (proj2 (inblk_in 0 (nx + nu) c)) by lia. rewrite andb_true_r. unfold rows. rewrite Nat.sub_0_r. destruct (inblk nx nu r) eqn:E.
    - apply inblk_in in E. rewrite (sum_one nu (r - nx)%nat); [|lia|].
      + rewrite Et by lia. unfold dfull at 2. rewrite (proj2 (Nat.ltb_ge _ _)) by lia. replace (nx + (2 * nx + nz + (r - nx) - (2 * nx + nz)))%nat with r by lia. rewrite Nat.eqb_refl. rr.
      + intros b Hb NE. unfold dfull at 1. rewrite (proj2 (Nat.ltb_ge _ _)) by lia. rewrite (proj2 (Nat.eqb_neq r _)) by lia. ring.
    - symmetry. apply sum_zero. intros b Hb. unfold dfull at 1. rewrite (proj2 (Nat.ltb_ge _ _)) by lia.
      rewrite (proj2 (Nat.eqb_neq r _)); [ring|]. intros ->. rewrite (proj2 (inblk_in nx nu _)) in E by lia. discriminate. }
  change (1 * H r c + 1 * sum (2 * nx + nz) (fun a => dfull D a r * sum nv (fun b => Hf a b * dfull D b c)) + (if inblk nx nu r && inblk 0 (nx + nu) c then 1 * rows (A := real) (2 * nx + nz) t (r - nx)%nat (c - 0)%nat else 0) =
    H r c + (sum (2 * nx + nz) (fun a => dfull D a r * sum nv (fun b => Hf a b * dfull D b c)) + sum nu (fun k => dfull D (2 * nx + nz + k)%nat r * sum nv (fun b => Hf (2 * nx + nz + k)%nat b * dfull D b c)))).
  rewrite E2. ring.
Qed.
Lemma hess_stage_mirror (Hf D H : matR) r c : (forall a b, Hf a b = Hf b a) -> (r < nx + nu)%nat -> (c < nx + nu)%nat ->
  mirror_u (A := real) (hess_stage o Hf D H) r c = mirror_u (A := real) H r c + sum nv (fun a => dfull D a r * sum nv (fun b => Hf a b * dfull D b c)).
Proof.
  intros HS Hr Hc. unfold mirror_u. destruct (Nat.ltb_spec c r) as [L|L].
  - rewrite hess_stage_upper by lia. f_equal. rewrite (sum_ext nv _ (fun a => sum nv (fun b => dfull D a c * Hf a b * dfull D b r))) by (intros; rewrite <- sum_scal; apply sum_ext; intros; ring).
    rewrite sum_swap. apply sum_ext. intros b _. rewrite <- sum_scal. apply sum_ext. intros a _. rewrite (HS a b). ring.
  - now apply hess_stage_upper.
Qed.
Lemma hess_stage_quad (Hf D H : matR) (d : vecR) : (forall a b, Hf a b = Hf b a) ->
  quad (nx + nu) (hess_stage o Hf D H) d = quad (nx + nu) H d + sum nv (fun a => sum nv (fun b => sum (nx + nu) (fun c => dfull D a c * d c) * Hf a b * sum (nx + nu) (fun c => dfull D b c * d c))).
Proof.
  intros HS. unfold quad.
  rewrite (sum_ext (nx + nu) _ (fun r => sum (nx + nu) (fun c => d r * mirror_u (A := real) H r c * d c) + sum (nx + nu) (fun c => sum nv (fun a => sum nv (fun b => d r * dfull D a r * Hf a b * dfull D b c * d c))))).
  2:{ intros r Hr. rewrite <- sum_plus. apply sum_ext. intros c Hc. rewrite hess_stage_mirror by assumption.
      rewrite (sum_ext nv (fun a => sum nv _) (fun a => d r * (dfull D a r * sum nv (fun b => Hf a b * dfull D b c)) * d c)).
      2:{ intros a _. rewrite (sum_ext nv _ (fun b => (d r * dfull D a r * d c) * (Hf a b * dfull D b c))) by (intros; ring). rewrite sum_scal. ring. }
      rewrite sum_scal_r, sum_scal. ring. }
  rewrite sum_plus. f_equal.
  rewrite (sum_ext (nx + nu) _ (fun r => sum nv (fun a => sum (nx + nu) (fun c => sum nv (fun b => d r * dfull D a r * Hf a b * dfull D b c * d c))))) by (intros; apply sum_swap).
  rewrite sum_swap. apply sum_ext. intros a _.
  rewrite (sum_ext (nx + nu) _ (fun r => sum nv (fun b => sum (nx + nu) (fun c => d r * dfull D a r * Hf a b * dfull D b c * d c)))) by (intros; apply sum_swap).
  rewrite sum_swap. apply sum_ext. intros b _.
  rewrite Rmult_assoc, <- sum_scal_r. apply sum_ext. intros r _. rewrite <- sum_scal, <- sum_scal. apply sum_ext. intros c _. ring.
Qed.
Lemma dw_full n i a (d : vecR) : (i < ns)%nat -> (a < nv)%nat -> 
  sum (nx + nu) (fun c => dfull (dw o inp (Ss n) (dKs n) i) a c * d c) =
  var4 nx nz (rk_stage o h (sens_dx MM p o inp lu_solve m F0 d (fun _ => 0) n) (sens_dk MM p o inp lu_solve m F0 d (fun _ => 0) n) i)
     (fun k => sens_dk MM p o inp lu_solve m F0 d (fun _ => 0) n (i * nx + k)%nat) (fun k => sens_dk MM p o inp lu_solve m F0 d (fun _ => 0) n (ns * nx + i * nz + k)%nat) (fun c => d (nx + c)%nat) a.
Proof.
  intros Hi Ha. assert (Edk : forall k, sens_dk MM p o inp lu_solve m F0 d (fun _ => 0) n k = - sum (nx + nu) (fun c => dKs n k c * d c)).
  { intros k. unfold sens_dk. rewrite (sum_zero np) by (intros; ring). ring. }
  unfold var4, dfull. destruct (Nat.ltb_spec a (2 * nx + nz)) as [L|L].
  - assert (Eu : inblk (2 * nx + nz) nu a = false) by (apply inblk_out; lia). unfold dw. cbv zeta. destruct (Nat.ltb_spec a nx) as [L1|L1]; [|destruct (Nat.ltb_spec a (2 * nx)) as [L2|L2]].
    + unfold rk_stage. unfold sens_dx. rewrite (sum_zero np) by (intros; ring). rewrite (sum_ext ns _ (fun j => - (o_A o i j * sum (nx + nu) (fun c => dKs n (j * nx + a)%nat c * d c)))) by (intros; rewrite Edk; ring).
      rewrite sum_opp, sum_lin, Rplus_0_r.
      rewrite (sum_ext (nx + nu) _ (fun c => Ss n a c * d c + - h * (sum ns (fun j => o_A o i j * dKs n (j * nx + a)%nat c) * d c))).
      * rewrite sum_plus, sum_scal. lra.
      * intros c Hc. unfold gecp. rewrite Eu. cbn [andb]. rewrite (inblk_out (2 * nx) nz a), (inblk_out nx nx a) by lia. cbn [andb].
        rewrite (loop_add2 ns (fun j => - h * (o_A o i j * dKs n (j * nx + a)%nat c))).
        -- rewrite sum_scal. match goal with |- ?x = ?y => change (@eq R x y) end. ring.
        -- intros j y _. rewrite gead_real. rewrite (proj2 (inblk_in 0 nx a)), (proj2 (inblk_in 0 (nx + nu) c)) by lia. cbn [andb]. unfold rows. rewrite !Nat.sub_0_r. f_equal.
           match goal with |- ?x = ?y => change (@eq R x y) end. cbn. ring.
    + rewrite Edk, <- sum_opp. apply sum_ext. intros c Hc. unfold gecp. rewrite Eu. cbn [andb]. rewrite (inblk_out (2 * nx) nz a) by lia. cbn [andb]. rewrite (proj2 (inblk_in nx nx a)), (proj2 (inblk_in 0 (nx + nu) c)) by lia. cbn [andb]. rewrite Nat.sub_0_r.
      match goal with |- ?x = ?y => change (@eq R x y) end. cbn. ring.
    + rewrite Edk, <- sum_opp. apply sum_ext. intros c Hc. unfold gecp. rewrite Eu. cbn [andb]. rewrite (proj2 (inblk_in (2 * nx) nz a)), (proj2 (inblk_in 0 (nx + nu) c)) by lia. cbn [andb]. rewrite Nat.sub_0_r.
      match goal with |- ?x = ?y => change (@eq R x y) end. cbn. ring.
  - destruct (Nat.ltb_spec a nx); [lia|]. destruct (Nat.ltb_spec a (2 * nx)); [lia|]. rewrite (sum_one (nx + nu) (nx + (a - (2 * nx + nz)))%nat); [|lia|].
    + rewrite Nat.eqb_refl. ring.
    + intros c Hc NE. rewrite (proj2 (Nat.eqb_neq c _) NE). ring.
Qed.
End S.
