(** The propagated cost: values of the loops, derivatives along integrations. *)
From Coq Require Import ZArith List Bool Arith Lia Reals Lra.
From Coquelicot Require Import Coquelicot.
From Verif Require Import Arith Vec LinModel CollModel CollTop RSum OcpProofs BghAdjProofs MeritGradProofs IrkModel IrkSpec IrkProofs IrkSens IrkFwd IrkAdj IrkTop IrkCostModel IrkCostSpec.
Import ListNotations.
Open Scope R_scope.

Lemma loop_proj {B} (P : B -> R) n (f : nat -> B -> B) (g : nat -> R) (x : B) : (forall i k, (i < n)%nat -> P (f i k) = P k + g i) -> P (loop n f x) = P x + sum n g.
Proof.
  intros H. induction n as [|n IH]; cbn [loop]; [cbn; lra|]. rewrite H by lia. rewrite IH by (intros; apply H; lia). rewrite sum_S. lra.
Qed.
Lemma sum_sum_ext n m (f g : nat -> nat -> R) : (forall a b, (a < n)%nat -> (b < m)%nat -> f a b = g a b) -> sum n (fun a => sum m (f a)) = sum n (fun a => sum m (g a)).
Proof. intros H. apply sum_ext. intros a Ha. apply sum_ext. intros b Hb. now apply H. Qed.
Lemma sum_mul n m (f g : nat -> R) : sum n f * sum m g = sum n (fun a => sum m (fun b => f a * g b)).
Proof. rewrite <- sum_scal_r. apply sum_ext. intros. rewrite sum_scal. reflexivity. Qed.
(** v^T L L^T v = |L^T v|^2, in the form B B^T with B = J^T L *)
Lemma factor_quad ny (L : matR) (v : vecR) :
  sum ny (fun q => sum ny (fun k => v k * L k q) * sum ny (fun k => v k * L k q)) = quadf ny (fun a b => sum ny (fun k => L a k * L b k)) v.
Proof.
  unfold quadf. rewrite (sum_ext ny _ (fun q => sum ny (fun a => sum ny (fun b => v a * L a q * (v b * L b q))))) by (intros q _; apply sum_mul).
  rewrite (sum_swap ny ny (fun q a => sum ny (fun b => v a * L a q * (v b * L b q)))). apply sum_ext. intros a Ha.
  rewrite (sum_swap ny ny (fun q b => v a * L a q * (v b * L b q))). apply sum_ext. intros b Hb.
  rewrite (Rmult_comm (v a)), Rmult_assoc, (Rmult_comm (sum _ _)), <- sum_scal. apply sum_ext. intros; ring.
Qed.
Lemma diag_quad ny (w : vecR) (W : matR) (v : vecR) : (forall a b, (a < ny)%nat -> (b < ny)%nat -> W a b = if (a =? b)%nat then w a * w a else 0) ->
  quadf ny W v = sum ny (fun q => (w q * v q) * (w q * v q)).
Proof.
  intros H. unfold quadf. apply sum_ext. intros a Ha. rewrite (sum_one ny a); [rewrite H, Nat.eqb_refl by assumption; ring|exact Ha|].
  intros b Hb N. rewrite H, (proj2 (Nat.eqb_neq a b)) by (try assumption; congruence). ring.
Qed.
Lemma quadf_ext n (W W' : matR) (v v' : vecR) : (forall a b, (a < n)%nat -> (b < n)%nat -> W a b = W' a b) -> agree n v v' -> quadf n W v = quadf n W' v'.
Proof. intros H E. apply sum_sum_ext. intros a b Ha Hb. rewrite H, !E by assumption. reflexivity. Qed.

Lemma mul_der (f g : R -> R) x l k : is_derive f x l -> is_derive g x k -> is_derive (fun e => f e * g e) x (l * g x + f x * k).
Proof. intros H1 H2. refine (is_derive_mult f g x l k H1 H2 _). intros a b. apply Rmult_comm. Qed.
Lemma minus_const_der (f : R -> R) a x l : is_derive f x l -> is_derive (fun e => f e - a) x l.
Proof. intros H. refine (is_derive_val _ _ _ _ (plus_der f (fun _ => - a) x l 0 H (is_derive_const (V := R_NormedModule) (- a) x)) (Rplus_0_r l)). Qed.

Section S.
Variable MM : vecR -> irk_model real.
Variable p : vecR.
Notation M := (MM p).
Variable o : irk_opts real.
Variable inp : irk_in real.
Variable lu lut : nat -> matR -> vecR -> vecR.
Variable m : irk_mem real.
Variable F0 : matR.
Notation nx := (o_nx o). Notation nu := (o_nu o). Notation nz := (o_nz o). Notation np := (o_np o). Notation ns := (o_ns o).
Notation nK := ((nx + nz) * ns)%nat.
Notation N := (o_num_steps o).
Notation h := (step o inp).
Notation u := (n_u inp).
Notation xs := (xs MM p o inp lu m F0).
Notation Ks := (Ks MM p o inp lu m F0).
Notation Ss := (Ss MM p o inp lu m F0).
Notation dKs := (dKs MM p o inp lu m F0).
Notation rec := (s_rec (forward M o inp lu m F0 N)).
Notation tt := (at_t o h (n_t0 inp)).
Lemma stage_t_at n i : stage_t o inp n i = tt n i.
Proof. unfold stage_t, at_t. rewrite of_nat_real. reflexivity. Qed.
Lemma of_N : @of_nat real N = INR N. Proof. apply of_nat_real. Qed.
Lemma rec_x n : (n < N)%nat -> r_x (rec n) = xs n. Proof. intros H. exact (proj1 (rec_val MM p o inp lu m F0 N n H)). Qed.
Lemma rec_K n : (n < N)%nat -> r_K (rec n) = Ks n. Proof. intros H. exact (proj1 (proj2 (rec_val MM p o inp lu m F0 N n H))). Qed.
Lemma rec_S n : (n < N)%nat -> r_S (rec n) = Ss n. Proof. intros H. exact (proj1 (proj2 (proj2 (proj2 (rec_val MM p o inp lu m F0 N n H))))). Qed.
Lemma rec_dK n : (n < N)%nat -> with_sens o = true -> r_dK (rec n) = dKs n. Proof. intros H W. exact (proj2 (proj2 (proj2 (proj2 (proj2 (rec_val MM p o inp lu m F0 N n H)))) W)). Qed.
Lemma at_x_y {B} (g : vecR -> vecR -> R -> B) n i : (n < N)%nat -> at_x o inp g n (rec n) i = g (stage_x o inp (xs n) (Ks n) i) u (tt n i).
Proof. intros H. unfold at_x. rewrite rec_x, rec_K, stage_t_at by exact H. reflexivity. Qed.
Lemma stage_S_val (SA D : matR) i r c : (r < nx)%nat -> (c < nx + nu)%nat -> stage_S o inp SA D i r c = SA r c - h * sum ns (fun j => o_A o i j * D (j * nx + r)%nat c).
Proof.
  intros Hr Hc. unfold stage_S. rewrite (loop_add2 ns (fun j => - h * (o_A o i j * D (j * nx + r)%nat c))).
  - rewrite sum_scal. change (SA r c + - h * sum ns (fun j => o_A o i j * D (j * nx + r)%nat c) = SA r c - h * sum ns (fun j => o_A o i j * D (j * nx + r)%nat c)). ring.
  - intros j Y _. rewrite gead_real. rewrite (proj2 (inblk_in 0 nx r)), (proj2 (inblk_in 0 (nx + nu) c)) by lia. cbn [andb]. unfold rows. rewrite !Nat.sub_0_r.
    change (Y r c + - (o_A o i j * h) * D (j * nx + r)%nat c = Y r c + - h * (o_A o i j * D (j * nx + r)%nat c)). ring.
Qed.
(** derivative of the stage state in a direction *)
Lemma stage_S_dir n i r (d : vecR) : (r < nx)%nat -> sum (nx + nu) (fun c => stage_S o inp (Ss n) (dKs n) i r c * d c) =
  rk_stage o h (sens_dx MM p o inp lu m F0 d (fun _ => 0) n) (sens_dk MM p o inp lu m F0 d (fun _ => 0) n) i r.
Proof.
  intros Hr. unfold rk_stage, sens_dx, sens_dk. rewrite (sum_zero np (fun c => _ * 0)) by (intros; ring).
  rewrite (sum_ext ns (fun j => o_A o i j * _) (fun j => - sum (nx + nu) (fun c => o_A o i j * dKs n (j * nx + r)%nat c * d c))).
  2:{ intros j _. rewrite (sum_zero np (fun c => _ * 0)) by (intros; ring). rewrite Rplus_0_r, <- Ropp_mult_distr_r. f_equal. rewrite <- sum_scal. apply sum_ext. intros; ring. }
  rewrite sum_opp, sum_swap, <- Ropp_mult_distr_r, <- sum_scal, Rplus_0_r. rewrite <- sum_opp, <- sum_plus. apply sum_ext. intros c Hc.
  rewrite stage_S_val by assumption. rewrite sum_scal_r. ring.
Qed.
Lemma J_dir (Jt D : matR) q (d : vecR) : sum (nx + nu) (fun c => J_tilde o Jt D q c * dir nx nu d c) =
  sum nu (fun c => Jt c q * d (nx + c)%nat) + sum nx (fun k => Jt (nu + k)%nat q * sum (nx + nu) (fun c => D k c * d c)).
Proof.
  rewrite (Nat.add_comm nx nu) at 1. rewrite sum_split.
  rewrite (sum_ext nu _ (fun c => Jt c q * d (nx + c)%nat + sum nx (fun k => Jt (nu + k)%nat q * (D k (nx + c)%nat * d (nx + c)%nat)))).
  2:{ intros c Hc. unfold J_tilde, dir. rewrite (proj2 (Nat.ltb_lt _ _) Hc). rewrite vsum_sum.
      change ((1 * sum nx (fun k => Jt (nu + k)%nat q * D k (nx + c)%nat) + 1 * Jt c q) * d (nx + c)%nat = Jt c q * d (nx + c)%nat + sum nx (fun k => Jt (nu + k)%nat q * (D k (nx + c)%nat * d (nx + c)%nat))).
      rewrite (sum_ext nx (fun k => Jt (nu + k)%nat q * (D k (nx + c)%nat * d (nx + c)%nat)) (fun k => Jt (nu + k)%nat q * D k (nx + c)%nat * d (nx + c)%nat)) by (intros; ring). rewrite sum_scal_r. ring. }
  rewrite sum_plus. rewrite (sum_ext nx (fun k => J_tilde o Jt D q (nu + k) * dir nx nu d (nu + k)%nat) (fun c => sum nx (fun k => Jt (nu + k)%nat q * (D k c * d c)))).
  2:{ intros c Hc. unfold J_tilde, dir. rewrite (proj2 (Nat.ltb_ge (nu + c) nu)) by lia. rewrite vsum_sum. replace (nu + c - nu)%nat with c by lia.
      change ((1 * sum nx (fun k => Jt (nu + k)%nat q * D k c)) * d c = sum nx (fun k => Jt (nu + k)%nat q * (D k c * d c))).
      rewrite (sum_ext nx (fun k => Jt (nu + k)%nat q * (D k c * d c)) (fun k => Jt (nu + k)%nat q * D k c * d c)) by (intros; ring). rewrite sum_scal_r. ring. }
  rewrite (sum_swap nu nx), (sum_swap nx nx (fun c k => _)). rewrite (sum_ext nx (fun k => Jt (nu + k)%nat q * sum (nx + nu) _)
     (fun k => sum nx (fun c => Jt (nu + k)%nat q * (D k c * d c)) + sum nu (fun c => Jt (nu + k)%nat q * (D k (nx + c)%nat * d (nx + c)%nat)))).
  - rewrite sum_plus. ring.
  - intros k Hk. rewrite sum_split, Rmult_plus_distr_l, <- !sum_scal. reflexivity.
Qed.

(** the outcome as sums *)
Variable ny : nat.
Variable cs : R.
Variable potrf : nat -> matR -> matR.
Variable stale : nat -> matR.
Notation cost_of c := (irk_cost o inp ny cs potrf sqrt c stale rec).
Notation stg c n i := (cost_stage o inp ny cs potrf sqrt c stale n (rec n) i).
Lemma cost_sums (c : cost real) k : cost_of c = Some k ->
  (forall g, (forall n i q, (n < N)%nat -> (i < ns)%nat -> k_fun (stg c n i q) = k_fun q + g n i) -> k_fun k = cs * sum N (fun n => sum ns (g n))) /\
  (forall a g, (forall n i q, (n < N)%nat -> (i < ns)%nat -> k_grad (stg c n i q) a = k_grad q a + g n i) -> k_grad k a = sum N (fun n => sum ns (g n))) /\
  (forall a b g, (forall n i q, (n < N)%nat -> (i < ns)%nat -> k_hess (stg c n i q) a b = k_hess q a b + g n i) -> k_hess k a b = sum N (fun n => sum ns (g n))).
Proof.
  unfold irk_cost. destruct (0 <? o_nz o)%nat; [discriminate|]. intros E. injection E as <-. cbn [k_fun k_grad k_hess]. split; [|split].
  - intros g H. rewrite (loop_proj (k_fun (A := real)) N _ (fun n => sum ns (g n))).
    + cbn [k_fun]. change ((0 + sum N (fun n => sum ns (g n))) * cs = cs * sum N (fun n => sum ns (g n))). ring.
    + intros n q Hn. apply (loop_proj (k_fun (A := real))). intros i q' Hi. now apply H.
  - intros a g H. rewrite (loop_proj (fun k => k_grad (A := real) k a) N _ (fun n => sum ns (g n))).
    + cbn [k_grad]. change (0 + sum N (fun n => sum ns (g n)) = sum N (fun n => sum ns (g n))). ring.
    + intros n q Hn. apply (loop_proj (fun k => k_grad (A := real) k a)). intros i q' Hi. now apply H.
  - intros a b g H. rewrite (loop_proj (fun k => k_hess (A := real) k a b) N _ (fun n => sum ns (g n))).
    + cbn [k_hess]. change (0 + sum N (fun n => sum ns (g n)) = sum N (fun n => sum ns (g n))). ring.
    + intros n q Hn. apply (loop_proj (fun k => k_hess (A := real) k a b)). intros i q' Hi. now apply H.
Qed.

(** values *)
Lemma stage_agree_at n i : agree nx (stage_x o inp (xs n) (Ks n) i) (rk_stage o h (xs n) (Ks n) i).
Proof. apply stage_agree. Qed.
Definition rho (F : nls_fun real) (yref : vecR) n i : vecR := fun q => y_fun F (rk_stage o h (xs n) (Ks n) i) u (tt n i) q - yref q.
Lemma nls_res_val F yref n i q : jac_ok (y_fun F) (y_jac F) nx nu ny -> (n < N)%nat -> (q < ny)%nat -> nls_res o inp F yref n (rec n) i q = rho F yref n i q.
Proof.
  intros HJ Hn Hq. unfold nls_res, rho. rewrite at_x_y by exact Hn.
  rewrite (jo_loc _ _ _ _ _ HJ _ (rk_stage o h (xs n) (Ks n) i) u u (tt n i) q (stage_agree_at n i) (fun _ _ => eq_refl) Hq).
  change (- (1) * yref q + y_fun F (rk_stage o h (xs n) (Ks n) i) u (tt n i) q = y_fun F (rk_stage o h (xs n) (Ks n) i) u (tt n i) q - yref q). ring.
Qed.
Lemma w_res_diag (w : weight real) (v : vecR) q : w_is_diag w = true -> w_res ny w v q = w_diag w q * v q.
Proof. intros E. unfold w_res. rewrite E. reflexivity. Qed.
Notation wv w F yref n i := (w_res ny w (nls_res o inp F yref n (rec n) i)).
Lemma nls_fun_raw F yref w k : cost_of (Nls F yref w) = Some k ->
  k_fun k = cs * sum N (fun n => sum ns (fun i => o_b o i / INR N * (1 / 2 * sum ny (fun q => wv w F yref n i q * wv w F yref n i q)))).
Proof.
  intros E. apply (proj1 (cost_sums _ _ E)). intros n i q Hn Hi.
  assert (X : forall b x, ncst (a := real) 5 (-1) * b / of_nat (o_num_steps o) * x = b / INR N * (1 / 2 * x)) by (intros b x; rewrite of_N, rcst_half; unfold ndiv; cbn; unfold Rdiv; ring).
  unfold cost_stage. destruct (with_sens o || o_sens_forw_p o); unfold nls_stage, nls_stage0; cbn [k_fun]; rewrite X, vsum_sum; reflexivity.
Qed.
Lemma nls_fun_diag F yref W w k : jac_ok (y_fun F) (y_jac F) nx nu ny -> weight_ok ny W w -> w_is_diag w = true -> cost_of (Nls F yref w) = Some k ->
  k_fun k = cs * quadrature o h (n_t0 inp) (nls_cost ny F yref W) xs u Ks.
Proof.
  intros HJ HW D E. rewrite (nls_fun_raw _ _ _ _ E). f_equal. apply sum_sum_ext. intros n i Hn Hi. f_equal. unfold nls_cost. f_equal.
  unfold weight_ok in HW. rewrite D in HW. rewrite (diag_quad ny (w_diag w) W _ HW). apply sum_ext. intros q Hq. rewrite w_res_diag by exact D. rewrite nls_res_val by assumption. reflexivity.
Qed.
Lemma conl_fun_val F y psi k : conl_ok F y psi nx nu ny -> cost_of (Conl F) = Some k ->
  k_fun k = cs * quadrature o h (n_t0 inp) (l_val F) xs u Ks.
Proof.
  intros HC E. refine (eq_trans (proj1 (cost_sums _ _ E) (fun n i => o_b o i / INR N * l_val F (rk_stage o h (xs n) (Ks n) i) u (tt n i)) _) eq_refl). intros n i q Hn Hi.
  assert (V : at_x o inp (l_val F) n (rec n) i = l_val F (rk_stage o h (xs n) (Ks n) i) u (tt n i)).
  { rewrite at_x_y by exact Hn. rewrite !(ck_val _ _ _ _ _ _ HC). apply (ck_psi _ _ _ _ _ _ HC). intros a Ha. apply (jo_loc _ _ _ _ _ (ck_jac _ _ _ _ _ _ HC)); [apply stage_agree_at|intros ? ?; reflexivity|exact Ha]. }
  unfold cost_stage. destruct (with_sens o || o_sens_forw_p o); unfold conl_stage, conl_stage0; cbn [k_fun]; rewrite V, of_N; reflexivity.
Qed.

(** gradients and Hessians in a direction *)
Hypothesis WS : with_sens o = true.
Variable d : vecR.
Definition Jn (J : vecR -> vecR -> R -> matR) n i : matR := J_tilde o (J (stage_x o inp (xs n) (Ks n) i) u (tt n i)) (stage_S o inp (Ss n) (dKs n) i).
Definition Dy (J : vecR -> vecR -> R -> matR) n i : vecR := fun q => sum (nx + nu) (fun c => Jn J n i q c * dir nx nu d c).
Lemma J_read (J : vecR -> vecR -> R -> matR) n i : (n < N)%nat ->
  J_tilde o (at_x o inp J n (rec n) i) (stage_S o inp (r_S (rec n)) (dK_read o stale n (rec n)) i) = Jn J n i.
Proof. intros Hn. unfold dK_read. rewrite WS, (rec_dK n Hn WS), rec_S, at_x_y by exact Hn. reflexivity. Qed.
Lemma pair_sum (G : nat -> nat -> nat -> R) : sum (nx + nu) (fun c => sum N (fun n => sum ns (fun i => G n i c)) * dir nx nu d c) =
  sum N (fun n => sum ns (fun i => sum (nx + nu) (fun c => G n i c * dir nx nu d c))).
Proof.
  rewrite (sum_ext (nx + nu) _ (fun c => sum N (fun n => sum ns (fun i => G n i c * dir nx nu d c)))).
  - rewrite sum_swap. apply sum_ext. intros n _. apply sum_swap.
  - intros c _. rewrite <- sum_scal_r. apply sum_ext. intros n _. rewrite <- sum_scal_r. reflexivity.
Qed.
Lemma dir_jac (J : vecR -> vecR -> R -> matR) n i (g : vecR) (a : R) : sum (nx + nu) (fun c => a * sum ny (fun q => Jn J n i q c * g q) * dir nx nu d c) = a * sum ny (fun q => g q * Dy J n i q).
Proof.
  rewrite (sum_ext (nx + nu) _ (fun c => a * sum ny (fun q => g q * (Jn J n i q c * dir nx nu d c)))).
  - rewrite sum_scal. f_equal. rewrite sum_swap. apply sum_ext. intros q _. unfold Dy. rewrite <- sum_scal. reflexivity.
  - intros c _. rewrite Rmult_assoc. f_equal. rewrite <- sum_scal_r. apply sum_ext. intros; ring.
Qed.
Lemma nls_grad_diag F yref w k : jac_ok (y_fun F) (y_jac F) nx nu ny -> w_is_diag w = true -> cost_of (Nls F yref w) = Some k ->
  sum (nx + nu) (fun c => k_grad k c * dir nx nu d c) =
  sum N (fun n => sum ns (fun i => cs * (o_b o i / INR N * sum ny (fun q => w_diag w q * (w_diag w q * rho F yref n i q) * Dy (y_jac F) n i q)))).
Proof.
  intros HJ D E.
  rewrite (sum_ext (nx + nu) _ (fun c => sum N (fun n => sum ns (fun i => cs * (o_b o i / INR N) * sum ny (fun q => Jn (y_jac F) n i q c * (w_diag w q * (w_diag w q * rho F yref n i q))))) * dir nx nu d c)).
  - rewrite pair_sum. apply sum_sum_ext. intros n i _ _. rewrite dir_jac. rewrite Rmult_assoc. reflexivity.
  - intros c Hc. f_equal. apply (proj1 (proj2 (cost_sums _ _ E)) c (fun n i => cs * (o_b o i / INR N) * sum ny (fun q => Jn (y_jac F) n i q c * (w_diag w q * (w_diag w q * rho F yref n i q))))).
    intros n i q Hn Hi. unfold cost_stage. rewrite WS. cbn [orb]. unfold nls_stage. cbn [k_grad]. rewrite (proj2 (Nat.ltb_lt _ _) Hc), J_read, vsum_sum, of_N by exact Hn.
    rewrite (sum_ext ny _ (fun q => Jn (y_jac F) n i q c * (w_diag w q * (w_diag w q * rho F yref n i q)))).
    + change (cs * o_b o i / INR N * sum ny (fun q => Jn (y_jac F) n i q c * (w_diag w q * (w_diag w q * rho F yref n i q))) + 1 * k_grad q c =
        k_grad q c + cs * (o_b o i / INR N) * sum ny (fun q => Jn (y_jac F) n i q c * (w_diag w q * (w_diag w q * rho F yref n i q)))). unfold Rdiv. ring.
    + intros a Ha. rewrite w_res_diag by exact D. rewrite nls_res_val by assumption. unfold w_jac. rewrite D. unfold gemm_nd, tr.
      change (1 * (Jn (y_jac F) n i a c * w_diag w a) * (w_diag w a * rho F yref n i a) = Jn (y_jac F) n i a c * (w_diag w a * (w_diag w a * rho F yref n i a))). ring.
Qed.
Lemma conl_grad F y psi k : conl_ok F y psi nx nu ny -> cost_of (Conl F) = Some k ->
  sum (nx + nu) (fun c => k_grad k c * dir nx nu d c) =
  sum N (fun n => sum ns (fun i => cs * (o_b o i / INR N * sum ny (fun q => l_grad F (rk_stage o h (xs n) (Ks n) i) u (tt n i) q * Dy (l_jac F) n i q)))).
Proof.
  intros HC E.
  rewrite (sum_ext (nx + nu) _ (fun c => sum N (fun n => sum ns (fun i => cs * (o_b o i / INR N) * sum ny (fun q => Jn (l_jac F) n i q c * l_grad F (rk_stage o h (xs n) (Ks n) i) u (tt n i) q))) * dir nx nu d c)).
  - rewrite pair_sum. apply sum_sum_ext. intros n i _ _. rewrite dir_jac. rewrite Rmult_assoc. reflexivity.
  - intros c Hc. f_equal. apply (proj1 (proj2 (cost_sums _ _ E)) c (fun n i => cs * (o_b o i / INR N) * sum ny (fun q => Jn (l_jac F) n i q c * l_grad F (rk_stage o h (xs n) (Ks n) i) u (tt n i) q))).
    intros n i q Hn Hi. unfold cost_stage. rewrite WS. cbn [orb]. unfold conl_stage. cbn [k_grad]. rewrite (proj2 (Nat.ltb_lt _ _) Hc), J_read, vsum_sum, of_N by exact Hn.
    rewrite (sum_ext ny _ (fun q => Jn (l_jac F) n i q c * l_grad F (rk_stage o h (xs n) (Ks n) i) u (tt n i) q)).
    + change (cs * o_b o i / INR N * sum ny (fun q => Jn (l_jac F) n i q c * l_grad F (rk_stage o h (xs n) (Ks n) i) u (tt n i) q) + 1 * k_grad q c =
        k_grad q c + cs * (o_b o i / INR N) * sum ny (fun q => Jn (l_jac F) n i q c * l_grad F (rk_stage o h (xs n) (Ks n) i) u (tt n i) q)). unfold Rdiv. ring.
    + intros a Ha. rewrite at_x_y by exact Hn. rewrite (ck_loc _ _ _ _ _ _ HC _ (rk_stage o h (xs n) (Ks n) i) u u (tt n i) a (stage_agree_at n i) (fun _ _ => eq_refl) Ha). reflexivity.
Qed.
(** Hessian: B B^T *)
Lemma hess_quad (k : cost_out real) (B : nat -> nat -> matR) :
  (forall a c, (a < nx + nu)%nat -> (c < nx + nu)%nat -> (c <= a)%nat -> k_hess k a c = sum N (fun n => sum ns (fun i => o_b o i / INR N * sum ny (fun q => B n i a q * B n i c q)))) ->
  quadf (nx + nu) (of_lower (k_hess k)) (dir nx nu d) =
  sum N (fun n => sum ns (fun i => o_b o i / INR N * sum ny (fun q => sum (nx + nu) (fun a => dir nx nu d a * B n i a q) * sum (nx + nu) (fun a => dir nx nu d a * B n i a q)))).
Proof.
  intros H. unfold quadf.
  rewrite (sum_sum_ext (nx + nu) (nx + nu) _ (fun a c => sum N (fun n => sum ns (fun i => o_b o i / INR N * sum ny (fun q => dir nx nu d a * B n i a q * (dir nx nu d c * B n i c q)))))).
  - rewrite (sum_ext (nx + nu) _ (fun a => sum N (fun n => sum ns (fun i => sum (nx + nu) (fun c => o_b o i / INR N * sum ny (fun q => dir nx nu d a * B n i a q * (dir nx nu d c * B n i c q))))))).
    2:{ intros a _. rewrite sum_swap. apply sum_ext. intros n _. apply sum_swap. }
    rewrite sum_swap. apply sum_ext. intros n _. rewrite sum_swap. apply sum_ext. intros i _.
    rewrite (sum_ext (nx + nu) _ (fun a => o_b o i / INR N * sum (nx + nu) (fun c => sum ny (fun q => dir nx nu d a * B n i a q * (dir nx nu d c * B n i c q))))) by (intros; apply sum_scal).
    rewrite sum_scal. f_equal. rewrite (sum_ext (nx + nu) _ (fun a => sum ny (fun q => sum (nx + nu) (fun c => dir nx nu d a * B n i a q * (dir nx nu d c * B n i c q))))) by (intros; apply sum_swap).
    rewrite sum_swap. apply sum_ext. intros q _. rewrite sum_mul. reflexivity.
  - intros a c Ha Hc. unfold of_lower.
    assert (E : forall x y, (x < nx + nu)%nat -> (y < nx + nu)%nat -> (y <= x)%nat -> dir nx nu d x * k_hess k x y * dir nx nu d y =
       sum N (fun n => sum ns (fun i => o_b o i / INR N * sum ny (fun q => dir nx nu d x * B n i x q * (dir nx nu d y * B n i y q))))).
    { intros x y Hx Hy L. rewrite (H x y Hx Hy L). rewrite <- sum_scal, <- sum_scal_r. apply sum_ext. intros n _. rewrite <- sum_scal, <- sum_scal_r. apply sum_ext. intros i _.
      rewrite (sum_ext ny (fun q => dir nx nu d x * B n i x q * (dir nx nu d y * B n i y q)) (fun q => (dir nx nu d x * dir nx nu d y) * (B n i x q * B n i y q))) by (intros; ring).
      rewrite sum_scal. ring. }
    destruct (Nat.leb_spec c a) as [L|L].
    + now apply E.
    + replace (dir nx nu d a * k_hess k c a * dir nx nu d c) with (dir nx nu d c * k_hess k c a * dir nx nu d a) by ring.
      rewrite (E c a Hc Ha) by lia. apply sum_sum_ext. intros n i _ _. f_equal. apply sum_ext. intros; ring.
Qed.
Notation Bn b L wd J n i := (w_jac ny b L wd (tr (Jn J n i))).
Lemma B_dir (b : bool) (L : matR) (wd : vecR) (W : matR) J n i : weight_ok ny W (mkW b L wd) ->
  sum ny (fun q => sum (nx + nu) (fun a => dir nx nu d a * Bn b L wd J n i a q) * sum (nx + nu) (fun a => dir nx nu d a * Bn b L wd J n i a q)) = quadf ny W (Dy J n i).
Proof.
  unfold weight_ok. cbn [w_is_diag w_chol w_diag]. unfold w_jac. destruct b; intros HW.
  - rewrite (diag_quad ny wd W _ HW). apply sum_ext. intros q Hq.
    assert (E : sum (nx + nu) (fun a => dir nx nu d a * gemm_nd (tr (Jn J n i)) wd a q) = wd q * Dy J n i q).
    { unfold Dy. rewrite <- sum_scal. apply sum_ext. intros a _. unfold gemm_nd, tr. change (dir nx nu d a * (1 * (Jn J n i q a * wd q)) = wd q * (Jn J n i q a * dir nx nu d a)). ring. }
    rewrite E. reflexivity.
  - rewrite (quadf_ext ny W (fun a b => sum ny (fun k => low L a k * low L b k)) _ _ HW (fun _ _ => eq_refl)). rewrite <- factor_quad. apply sum_ext. intros q Hq.
    assert (E : sum (nx + nu) (fun a => dir nx nu d a * trmm ny (tr (Jn J n i)) L a q) = sum ny (fun k => Dy J n i k * low L k q)).
    { rewrite (sum_ext (nx + nu) _ (fun a => sum ny (fun k => Jn J n i k a * dir nx nu d a * low L k q))).
      - rewrite sum_swap. apply sum_ext. intros k _. unfold Dy. rewrite <- sum_scal_r. reflexivity.
      - intros a _. unfold trmm, tr. rewrite vsum_sum. change (dir nx nu d a * (1 * sum ny (fun k => Jn J n i k a * low L k q)) = sum ny (fun k => Jn J n i k a * dir nx nu d a * low L k q)).
        rewrite Rmult_1_l, <- sum_scal. apply sum_ext. intros; ring. }
    rewrite E. reflexivity.
Qed.
Lemma nls_hess F yref W w k : weight_ok ny W w -> cost_of (Nls F yref w) = Some k ->
  quadf (nx + nu) (of_lower (k_hess k)) (dir nx nu d) = sum N (fun n => sum ns (fun i => o_b o i / INR N * quadf ny W (Dy (y_jac F) n i))).
Proof.
  intros HW E. rewrite (hess_quad k (fun n i => Bn (w_is_diag w) (w_chol w) (w_diag w) (y_jac F) n i)).
  - apply sum_sum_ext. intros n i _ _. f_equal. apply B_dir. destruct w; exact HW.
  - intros a c Ha Hc _. apply (proj2 (proj2 (cost_sums _ _ E)) a c (fun n i => o_b o i / INR N * sum ny (fun q => Bn (w_is_diag w) (w_chol w) (w_diag w) (y_jac F) n i a q * Bn (w_is_diag w) (w_chol w) (w_diag w) (y_jac F) n i c q))).
    intros n i q Hn Hi. unfold cost_stage. rewrite WS. cbn [orb]. unfold nls_stage. cbn [k_hess]. rewrite (proj2 (Nat.ltb_lt _ _) Ha), (proj2 (Nat.ltb_lt _ _) Hc). cbn [andb]. rewrite J_read, vsum_sum, of_N by exact Hn.
    apply (eq_trans (Rplus_comm _ _)). f_equal. apply Rmult_1_l.
Qed.
Lemma nls_hess_sym F yref w k a c : cost_of (Nls F yref w) = Some k -> (a < nx + nu)%nat -> (c < nx + nu)%nat -> k_hess k a c = k_hess k c a.
Proof.
  intros E Ha Hc.
  assert (Q : forall x y, (x < nx + nu)%nat -> (y < nx + nu)%nat -> k_hess k x y = sum N (fun n => sum ns (fun i => o_b o i / INR N * sum ny (fun q => Bn (w_is_diag w) (w_chol w) (w_diag w) (y_jac F) n i x q * Bn (w_is_diag w) (w_chol w) (w_diag w) (y_jac F) n i y q)))).
  { intros x y Hx Hy. apply (proj2 (proj2 (cost_sums _ _ E)) x y (fun n i => o_b o i / INR N * sum ny (fun q => Bn (w_is_diag w) (w_chol w) (w_diag w) (y_jac F) n i x q * Bn (w_is_diag w) (w_chol w) (w_diag w) (y_jac F) n i y q))).
    intros n i q Hn Hi. unfold cost_stage. rewrite WS. cbn [orb]. unfold nls_stage. cbn [k_hess]. rewrite (proj2 (Nat.ltb_lt _ _) Hx), (proj2 (Nat.ltb_lt _ _) Hy). cbn [andb]. rewrite J_read, vsum_sum, of_N by exact Hn.
    apply (eq_trans (Rplus_comm _ _)). f_equal. apply Rmult_1_l. }
  rewrite !Q by assumption. apply sum_sum_ext. intros n i _ _. f_equal. apply sum_ext. intros; apply Rmult_comm.
Qed.
Lemma conl_hess F y psi k : conl_ok F y psi nx nu ny -> (forall n i, (n < N)%nat -> (i < ns)%nat -> l_diag F (stage_x o inp (xs n) (Ks n) i) u (tt n i) = false ->
    potrf_ok ny potrf (l_hess F (stage_x o inp (xs n) (Ks n) i) u (tt n i))) -> cost_of (Conl F) = Some k ->
  quadf (nx + nu) (of_lower (k_hess k)) (dir nx nu d) = sum N (fun n => sum ns (fun i => o_b o i / INR N * quadf ny (l_hess F (stage_x o inp (xs n) (Ks n) i) u (tt n i)) (Dy (l_jac F) n i))).
Proof.
  intros HC HP E. pose (B := fun n i => let W := l_hess F (stage_x o inp (xs n) (Ks n) i) u (tt n i) in Bn (l_diag F (stage_x o inp (xs n) (Ks n) i) u (tt n i)) (potrf ny W) (fun q => sqrt (W q q)) (l_jac F) n i).
  rewrite (hess_quad k B).
  - apply sum_sum_ext. intros n i Hn Hi. f_equal. unfold B. cbv zeta. apply B_dir. unfold weight_ok. cbn [w_is_diag w_chol w_diag].
    destruct (l_diag F (stage_x o inp (xs n) (Ks n) i) u (tt n i)) eqn:D.
    + intros a b Ha Hb. destruct (ck_diag _ _ _ _ _ _ HC _ _ _ D a b Ha Hb) as [P Z]. destruct (Nat.eqb_spec a b) as [<-|NE]; [|now apply Z]. symmetry. apply sqrt_sqrt, P.
    + exact (HP n i Hn Hi D).
  - intros a c Ha Hc L. apply (proj2 (proj2 (cost_sums _ _ E)) a c (fun n i => o_b o i / INR N * sum ny (fun q => B n i a q * B n i c q))).
    intros n i q Hn Hi. unfold cost_stage. rewrite WS. cbn [orb]. unfold conl_stage. cbn [k_hess]. rewrite (proj2 (Nat.ltb_lt _ _) Ha), (proj2 (Nat.ltb_lt _ _) Hc), (proj2 (Nat.leb_le _ _) L). cbn [andb].
    rewrite J_read, vsum_sum, of_N by exact Hn. rewrite !at_x_y by exact Hn. apply (eq_trans (Rplus_comm _ _)). f_equal. apply Rmult_1_l.
Qed.

(** along a family of integrations *)
Hypothesis HC : irk_consistent MM nx nu nz np.
Hypothesis LU : lu_ok nK lu.
Hypothesis HR : regular MM p o inp lu m F0 N.
Hypothesis HI : irk_seed_ok o inp.
Variable U : R -> vecR.
Variable X KK : nat -> R -> vecR.
Hypothesis HX : irk_curve o h (n_t0 inp) N MM (fun _ => p) U X KK.
Hypothesis U0 : agree nu (U 0) u.
Hypothesis X0 : agree nx (X 0%nat 0) (n_x inp).
Hypothesis K0 : forall n, (n < N)%nat -> agree nK (KK n 0) (Ks n).
Variable dk : nat -> vecR.
Hypothesis DK : forall n k, (n < N)%nat -> (k < nK)%nat -> is_derive (fun e => KK n e k) 0 (dk n k).
Hypothesis DX : forall r, (r < nx)%nat -> is_derive (fun e => X 0%nat e r) 0 (sum (nx + nu) (fun c => n_S_forw inp r c * d c)).
Hypothesis DU : forall c, (c < nu)%nat -> is_derive (fun e => U e c) 0 (d (nx + c)%nat).
Lemma stage_y_derive y J n i q : jac_ok y J nx nu ny -> (n < N)%nat -> (i < ns)%nat -> (q < ny)%nat ->
  is_derive (fun e => y (rk_stage o h (X n e) (KK n e) i) (U e) (tt n i) q) 0 (Dy J n i q).
Proof.
  intros HJ Hn Hi Hq. set (dx0 := fun r => sum (nx + nu) (fun c => n_S_forw inp r c * d c)).
  assert (DP : forall c, (c < np)%nat -> is_derive (fun _ : R => p c) 0 ((fun _ => 0) c)) by (intros; apply (is_derive_const (V := R_NormedModule) (p c) 0)).
  pose proof (forward_derivative MM p o inp lu HC m F0 N (fun _ => p) U X KK HX eq_refl U0 X0 K0 dx0 dk (fun c => d (nx + c)%nat) (fun _ => 0) DK DX DU DP LU HR d
    (or_introl WS) (or_intror (fun _ _ => eq_refl)) HI (fun _ _ => eq_refl) (fun _ _ => eq_refl) n ltac:(lia)) as [A1 A2]. specialize (A2 Hn).
  assert (ES : agree nx (rk_stage o h (X n 0) (KK n 0) i) (stage_x o inp (xs n) (Ks n) i)).
  { intros r Hr. rewrite (stage_agree_at n i r Hr). apply stage_ext; [exact Hi| |now apply K0|exact Hr].
    intros c Hc. apply (curve_start MM p o inp lu m F0 N (fun _ => p) U X KK HX X0 K0 n ltac:(lia) c Hc). }
  refine (is_derive_val _ _ _ _ (jo_diff _ _ _ _ _ HJ (fun e => rk_stage o h (X n e) (KK n e) i) U (rk_stage o h (ddx o inp dx0 dk n) (dk n) i) (fun c => d (nx + c)%nat) (tt n i) _ DU q Hq) _).
  - intros r Hr. apply (stage_derive o inp (X n) (KK n)); [exact Hr|apply (curve_derive MM o inp N (fun _ => p) U X KK HX dx0 dk DK DX n ltac:(lia) r Hr)|]. intros k Hk. now apply DK.
  - unfold Dy. rewrite (sum_ext (nx + nu) _ (fun c => J_tilde o (J (stage_x o inp (xs n) (Ks n) i) u (tt n i)) (stage_S o inp (Ss n) (dKs n) i) q c * dir nx nu d c)) by (intros; reflexivity).
    rewrite J_dir. apply (f_equal2 Rplus).
    + apply sum_ext. intros c Hc. f_equal. apply (jo_jac _ _ _ _ _ HJ); [exact ES|exact U0|lia|exact Hq].
    + apply sum_ext. intros c Hc. f_equal.
      * apply (jo_jac _ _ _ _ _ HJ); [exact ES|exact U0|lia|exact Hq].
      * rewrite stage_S_dir by exact Hc. apply stage_ext; [exact Hi|exact A1|exact A2|exact Hc].
Qed.
Lemma rho_start F yref n i q : jac_ok (y_fun F) (y_jac F) nx nu ny -> (n < N)%nat -> (i < ns)%nat -> (q < ny)%nat ->
  y_fun F (rk_stage o h (X n 0) (KK n 0) i) (U 0) (tt n i) q - yref q = rho F yref n i q.
Proof.
  intros HJ Hn Hi Hq. unfold rho. f_equal. apply (jo_loc _ _ _ _ _ HJ); [|exact U0|exact Hq]. apply stage_ext; [exact Hi| |now apply K0].
  intros c Hc. apply (curve_start MM p o inp lu m F0 N (fun _ => p) U X KK HX X0 K0 n ltac:(lia) c Hc).
Qed.
Lemma nls_diag_derive F yref W w k : jac_ok (y_fun F) (y_jac F) nx nu ny -> weight_ok ny W w -> w_is_diag w = true -> cost_of (Nls F yref w) = Some k ->
  is_derive (fun e => cs * quadrature o h (n_t0 inp) (nls_cost ny F yref W) (fun n => X n e) (U e) (fun n => KK n e)) 0 (sum (nx + nu) (fun c => k_grad k c * dir nx nu d c)).
Proof.
  intros HJ HW D E. rewrite (nls_grad_diag F yref w k HJ D E). unfold weight_ok in HW. rewrite D in HW.
  apply (is_derive_val _ _ (cs * sum N (fun n => sum ns (fun i => o_b o i / INR N * sum ny (fun q => w_diag w q * (w_diag w q * rho F yref n i q) * Dy (y_jac F) n i q))))).
  - apply scal_der. unfold quadrature. apply (is_derive_sum N (fun n e => sum ns (fun i => _))). intros n Hn. apply (is_derive_sum ns (fun i e => _)). intros i Hi. apply scal_der.
    unfold nls_cost. apply (is_derive_ext (fun e => 1 / 2 * sum ny (fun q => (w_diag w q * (y_fun F (rk_stage o h (X n e) (KK n e) i) (U e) (tt n i) q - yref q)) * (w_diag w q * (y_fun F (rk_stage o h (X n e) (KK n e) i) (U e) (tt n i) q - yref q))))).
    { intros e. rewrite (diag_quad ny (w_diag w) W _ HW). reflexivity. }
    apply (is_derive_val _ _ (1 / 2 * sum ny (fun q => 2 * (w_diag w q * (w_diag w q * rho F yref n i q) * Dy (y_jac F) n i q)))); [|rewrite sum_scal; lra].
    apply scal_der. apply (is_derive_sum ny (fun q e => _)). intros q Hq.
    pose proof (scal_der (w_diag w q) _ 0 _ (minus_const_der _ (yref q) 0 _ (stage_y_derive (y_fun F) (y_jac F) n i q HJ Hn Hi Hq))) as G.
    refine (is_derive_val _ _ _ _ (mul_der _ _ 0 _ _ G G) _). cbv beta. rewrite (rho_start F yref n i q HJ Hn Hi Hq). ring.
  - rewrite <- sum_scal. apply sum_ext. intros n _. rewrite <- sum_scal. reflexivity.
Qed.
Lemma conl_derive F y psi k : conl_ok F y psi nx nu ny -> cost_of (Conl F) = Some k ->
  is_derive (fun e => cs * quadrature o h (n_t0 inp) (l_val F) (fun n => X n e) (U e) (fun n => KK n e)) 0 (sum (nx + nu) (fun c => k_grad k c * dir nx nu d c)).
Proof.
  intros HO E. rewrite (conl_grad F y psi k HO E).
  apply (is_derive_val _ _ (cs * sum N (fun n => sum ns (fun i => o_b o i / INR N * sum ny (fun q => l_grad F (rk_stage o h (xs n) (Ks n) i) u (tt n i) q * Dy (l_jac F) n i q))))).
  - apply scal_der. unfold quadrature. apply (is_derive_sum N (fun n e => sum ns (fun i => _))). intros n Hn. apply (is_derive_sum ns (fun i e => _)). intros i Hi. apply scal_der.
    apply (is_derive_ext (fun e => psi (y (rk_stage o h (X n e) (KK n e) i) (U e) (tt n i)) (tt n i))). { intros e. symmetry. apply (ck_val _ _ _ _ _ _ HO). }
    apply (ck_grad _ _ _ _ _ _ HO (fun e => y (rk_stage o h (X n e) (KK n e) i) (U e) (tt n i)) (Dy (l_jac F) n i) (rk_stage o h (xs n) (Ks n) i) u (tt n i)).
    + intros q Hq. apply (jo_loc _ _ _ _ _ (ck_jac _ _ _ _ _ _ HO)); [|exact U0|exact Hq]. apply stage_ext; [exact Hi| |now apply K0].
      intros c Hc. apply (curve_start MM p o inp lu m F0 N (fun _ => p) U X KK HX X0 K0 n ltac:(lia) c Hc).
    + intros q Hq. apply (stage_y_derive y (l_jac F) n i q (ck_jac _ _ _ _ _ _ HO) Hn Hi Hq).
  - rewrite <- sum_scal. apply sum_ext. intros n _. rewrite <- sum_scal. reflexivity.
Qed.
End S.
