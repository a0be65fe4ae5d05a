(** Equivalence of the convexified QP, recovery of the multipliers, convexity. *)
From Coq Require Import ZArith List Bool Lia Reals Lra.
From Verif Require Import Arith Vec LinModel RSum InterpProofs RegModel RegProofs IrkModel DynProofs CvxModel CvxSpec CvxProofs.
Open Scope R_scope.

(** algebra of quadratic forms *)
Lemma quad_plus n M P v : quad n (fun i j => M i j + P i j) v = quad n M v + quad n P v.
Proof. unfold quad. rewrite <- sum_plus. apply sum_ext. intros i _. rewrite <- sum_plus. apply sum_ext. intros; ring. Qed.
Lemma quad_blk o m q (w : vecR) : quad (o + m) (blk o q) w = quad m q (fun j => w (o + j)%nat).
Proof.
  unfold quad. rewrite sum_split. rewrite (sum_zero o).
  2:{ intros i Hi. apply sum_zero. intros j _. unfold blk. bools; lra. }
  rewrite Rplus_0_l. apply sum_ext. intros i Hi. rewrite sum_split. rewrite (sum_zero o).
  2:{ intros j Hj. unfold blk. bools; lra. }
  rewrite Rplus_0_l. apply sum_ext. intros j Hj. unfold blk. bools. rewrite !Nat.add_sub_swap, !Nat.sub_diag by lia. reflexivity.
Qed.
Lemma mv_blk o m q (w : vecR) i : sum (o + m) (fun j => blk o q i j * w j) = if (o <=? i)%nat then sum m (fun b => q (i - o)%nat b * w (o + b)%nat) else 0.
Proof.
  rewrite sum_split, (sum_zero o). 2:{ intros j Hj. unfold blk. bools; lra. }
  rewrite Rplus_0_l. destruct (Nat.leb_spec o i).
  - apply sum_ext. intros j Hj. unfold blk. bools. rewrite (Nat.add_sub_swap o j o), Nat.sub_diag by lia. reflexivity.
  - apply sum_zero. intros j Hj. unfold blk. bools; lra.
Qed.
Lemma mv_GG n m BA q (w : vecR) i : sum n (fun j => GG m BA q i j * w j) = sum m (fun a => BA i a * sum m (fun b => q a b * sum n (fun j => BA j b * w j))).
Proof.
  unfold GG. rewrite (sum_ext n _ (fun j => sum m (fun a => sum m (fun b => BA i a * (q a b * (BA j b * w j)))))).
  2:{ intros j _. rewrite <- sum_scal_r. apply sum_ext. intros a _. rewrite <- sum_scal_r. apply sum_ext. intros; ring. }
  rewrite sum_swap. apply sum_ext. intros a _. rewrite sum_swap, <- sum_scal. apply sum_ext. intros b _. rewrite <- !sum_scal. reflexivity.
Qed.
Lemma quad_mv n M w : quad n M w = sum n (fun i => w i * sum n (fun j => M i j * w j)).
Proof. unfold quad. apply sum_ext. intros i _. rewrite <- sum_scal. apply sum_ext. intros; ring. Qed.
Lemma quad_GG n m BA q (w : vecR) : quad n (GG m BA q) w = quad m q (fun b => sum n (fun j => BA j b * w j)).
Proof.
  rewrite quad_mv. rewrite (sum_ext n _ (fun i => sum m (fun a => (BA i a * w i) * sum m (fun b => q a b * sum n (fun j => BA j b * w j))))).
  2:{ intros i _. rewrite mv_GG, <- sum_scal. apply sum_ext. intros; ring. }
  rewrite sum_swap, quad_mv. apply sum_ext. intros a _. rewrite sum_scal_r. reflexivity.
Qed.
Lemma quad_shift m q (v b : vecR) : sym m q -> quad m q (fun j => v j + b j) = quad m q v + 2 * sum m (fun i => b i * sum m (fun j => q i j * v j)) + quad m q b.
Proof.
  intros Hs. rewrite (quad_mv m q v), (quad_mv m q b), (quad_mv m q (fun j => v j + b j)).
  assert (E : sum m (fun i => v i * sum m (fun j => q i j * b j)) = sum m (fun i => b i * sum m (fun j => q i j * v j))).
  { rewrite (sum_ext m _ (fun i => sum m (fun j => b j * (q j i * v i)))).
    2:{ intros i Hi. rewrite <- sum_scal. apply sum_ext. intros j Hj. rewrite (Hs i j) by assumption. ring. }
    rewrite sum_swap. apply sum_ext. intros j _. rewrite <- sum_scal. reflexivity. }
  rewrite (sum_ext m _ (fun i => (v i * sum m (fun j => q i j * v j) + v i * sum m (fun j => q i j * b j)) + (b i * sum m (fun j => q i j * v j) + b i * sum m (fun j => q i j * b j)))).
  2:{ intros i _. rewrite (sum_ext m (fun j => q i j * (v j + b j)) (fun j => q i j * v j + q i j * b j)) by (intros; ring). rewrite sum_plus. ring. }
  rewrite !sum_plus, E. ring.
Qed.

Section P.
Variable eig : nat -> matR -> matR * vecR.
Variable potrf : nat -> matR -> matR.
Variable trsm : nat -> nat -> matR -> matR -> matR.
Variable N : nat.
Variable nx nu : nat -> nat.
Variable delta : R.
Variable bv : nat -> vecR.
Local Notation n k := (nu k + nx k)%nat.
Local Notation sweep := (sweep (A := real) eig potrf trsm N nx nu delta bv).

Section Equiv.
Variables bak : bool.
Variable s : cmem real.
Hypothesis ND : forall k, (k < N)%nat -> (nx (k + 1) <= nx k)%nat.
Hypothesis HB : bak = true \/ forall k i j, (k < N)%nat -> (i < n k)%nat -> (j < n k)%nat -> c_org s k i j = c_RSQ s k i j.
Let f := sweep true bak true N s.
Let Q k := QB eig potrf trsm N nx nu delta bv bak s k.
Let qs k : sym (nx k) (Q k) \/ (N < k)%nat.
Proof. destruct (le_lt_dec k N); [left; apply qb_sym; assumption|right; assumption]. Qed.

Lemma stage_diff k w : (k < N)%nat -> dynamic N nx nu (c_BAbt s) bv w ->
  stage_cost (n k) (c_org f k) (c_rq s k) (w k) = stage_cost (n k) (c_RSQ f k) (c_rq f k) (w k)
    + 1 / 2 * quad (nx k) (Q k) (fun j => w k (nu k + j)%nat) - 1 / 2 * quad (nx (k + 1)) (Q (k + 1)) (fun j => w (k + 1)%nat (nu (k + 1) + j)%nat)
    + 1 / 2 * quad (nx (k + 1)) (Q (k + 1)) (bv k).
Proof.
  intros Hk Hd. set (m := nx (k + 1)). set (q := Q (k + 1)). set (v := fun b => sum (n k) (fun j => c_BAbt s k j b * w k j)).
  assert (Sq : sym m q) by (apply qb_sym; lia).
  assert (EY : quad m q (fun j => w (k + 1)%nat (nu (k + 1) + j)%nat) = quad m q (fun j => v j + bv k j)).
  { unfold quad. apply sum_ext. intros i Hi. apply sum_ext. intros j Hj. rewrite !(Hd k) by assumption. reflexivity. }
  rewrite EY, (quad_shift m q v (bv k) Sq). unfold stage_cost.
  assert (EH : quad (n k) (lowsym (c_RSQ f k)) (w k) + quad (nx k) (Q k) (fun j => w k (nu k + j)%nat) = quad (n k) (lowsym (c_org f k)) (w k) + quad m q v).
  { rewrite <- quad_blk. pose proof (quad_GG (n k) m (c_BAbt s k) q (w k)) as EG. fold v in EG. rewrite <- EG, <- !quad_plus. apply quad_ext. intros i j Hi Hj.
    apply (chain_H eig potrf trsm N nx nu delta bv bak s ND HB k i j Hk Hi Hj). }
  assert (ER : sum (n k) (fun i => c_rq f k i * w k i) = sum (n k) (fun i => c_rq s k i * w k i) + sum m (fun i => bv k i * sum m (fun j => q i j * v j))).
  { rewrite (sum_ext (n k) _ (fun i => c_rq s k i * w k i + sum m (fun a => sum m (fun b => bv k a * (q a b * (c_BAbt s k i b * w k i)))))).
    2:{ intros i Hi. pose proof (chain_r eig potrf trsm N nx nu delta bv bak s ND k i Hk Hi) as E. fold f in E. rewrite E, Rmult_plus_distr_r. f_equal.
        rewrite <- sum_scal_r. apply sum_ext. intros a _. rewrite <- sum_scal_r. apply sum_ext. intros b _. unfold q, Q. ring. }
    rewrite sum_plus. f_equal. rewrite sum_swap. apply sum_ext. intros a _. rewrite sum_swap, <- sum_scal. apply sum_ext. intros b _. unfold v. rewrite !sum_scal. ring. }
  rewrite ER. lra.
Qed.
Lemma last_diff w : stage_cost (n N) (c_org f N) (c_rq s N) (w N) = stage_cost (n N) (c_RSQ f N) (c_rq f N) (w N) + 1 / 2 * quad (nx N) (Q N) (fun j => w N (nu N + j)%nat).
Proof.
  unfold stage_cost. rewrite <- quad_blk.
  assert (EH : quad (n N) (lowsym (c_org f N)) (w N) = quad (n N) (lowsym (c_RSQ f N)) (w N) + quad (n N) (blk (nu N) (Q N)) (w N)).
  { rewrite <- quad_plus. apply quad_ext. intros i j Hi Hj. symmetry. apply (chain_HN eig potrf trsm N nx nu delta bv bak s i j Hi Hj). }
  rewrite EH. rewrite (sum_ext (n N) (fun i => c_rq f N i * w N i) (fun i => c_rq s N i * w N i)). { lra. }
  intros i _. pose proof (chain_rN eig potrf trsm N nx nu delta bv bak s i) as E. fold f in E. rewrite E. reflexivity.
Qed.
Lemma objective_diff w : dynamic N nx nu (c_BAbt s) bv w ->
  objective N nx nu (c_org f) (c_rq s) w = objective N nx nu (c_RSQ f) (c_rq f) w
    + 1 / 2 * quad (nx 0) (Q 0) (fun j => w 0%nat (nu 0 + j)%nat) + sum N (fun k => 1 / 2 * quad (nx (k + 1)) (Q (k + 1)) (bv k)).
Proof.
  intros Hd. unfold objective. rewrite Nat.add_1_r, !sum_S.
  assert (T : forall t, (t <= N)%nat -> sum t (fun k => stage_cost (n k) (c_org f k) (c_rq s k) (w k)) = sum t (fun k => stage_cost (n k) (c_RSQ f k) (c_rq f k) (w k))
    + 1 / 2 * quad (nx 0) (Q 0) (fun j => w 0%nat (nu 0 + j)%nat) - 1 / 2 * quad (nx t) (Q t) (fun j => w t (nu t + j)%nat) + sum t (fun k => 1 / 2 * quad (nx (k + 1)) (Q (k + 1)) (bv k))).
  { induction t as [|t IH]; intros Ht. { cbn [sum]. ring. }
    rewrite !sum_S, IH, stage_diff by (assumption || lia). rewrite !Nat.add_1_r. lra. }
  rewrite (T N (le_n N)), last_diff. lra.
Qed.

(** the gradient of the Lagrangian *)
Lemma row_diff k w i : (k < N)%nat -> (i < n k)%nat -> dynamic N nx nu (c_BAbt s) bv w ->
  sum (n k) (fun j => lowsym (c_RSQ f k) i j * w k j) + c_rq f k i + (if (nu k <=? i)%nat then sum (nx k) (fun b => Q k (i - nu k)%nat b * w k (nu k + b)%nat) else 0) =
  sum (n k) (fun j => lowsym (c_org f k) i j * w k j) + c_rq s k i
  + sum (nx (k + 1)) (fun l => c_BAbt s k i l * sum (nx (k + 1)) (fun b => Q (k + 1) l b * w (k + 1)%nat (nu (k + 1) + b)%nat)).
Proof.
  intros Hk Hi Hd. set (m := nx (k + 1)). set (q := Q (k + 1)). set (v := fun b => sum (n k) (fun j => c_BAbt s k j b * w k j)).
  assert (Sq : sym m q) by (apply qb_sym; lia).
  rewrite <- mv_blk.
  assert (EH : sum (n k) (fun j => lowsym (c_RSQ f k) i j * w k j) + sum (n k) (fun j => blk (nu k) (Q k) i j * w k j) =
               sum (n k) (fun j => lowsym (c_org f k) i j * w k j) + sum m (fun a => c_BAbt s k i a * sum m (fun b => q a b * v b))).
  { pose proof (mv_GG (n k) m (c_BAbt s k) q (w k) i) as EG. fold v in EG. unfold v. rewrite <- EG, <- !sum_plus. apply sum_ext. intros j Hj. rewrite <- !Rmult_plus_distr_r. f_equal.
    apply (chain_H eig potrf trsm N nx nu delta bv bak s ND HB k i j Hk Hi Hj). }
  pose proof (chain_r eig potrf trsm N nx nu delta bv bak s ND k i Hk Hi) as ER. fold f in ER.
  rewrite (sum_ext m (fun l => c_BAbt s k i l * sum m (fun b => q l b * w (k + 1)%nat (nu (k + 1) + b)%nat))
     (fun l => c_BAbt s k i l * sum m (fun b => q l b * v b) + c_BAbt s k i l * sum m (fun b => q l b * bv k b))).
  2:{ intros l Hl. rewrite <- Rmult_plus_distr_l. f_equal. rewrite <- sum_plus. apply sum_ext. intros b Hb. rewrite (Hd k b Hk Hb). fold (v b). ring. }
  rewrite sum_plus.
  assert (EB : sum m (fun l => c_BAbt s k i l * sum m (fun b => q l b * bv k b)) = sum m (fun a => sum m (fun b => bv k a * q a b * c_BAbt s k i b))).
  { rewrite sum_swap. apply sum_ext. intros l Hl. rewrite <- sum_scal. apply sum_ext. intros b Hb. rewrite (Sq l b) by assumption. ring. }
  rewrite EB, ER. change (QB eig potrf trsm N nx nu delta bv bak s (k + 1)) with q. fold m. lra.
Qed.
Lemma row_last w i : (i < n N)%nat ->
  sum (n N) (fun j => lowsym (c_RSQ f N) i j * w N j) + c_rq f N i + (if (nu N <=? i)%nat then sum (nx N) (fun b => Q N (i - nu N)%nat b * w N (nu N + b)%nat) else 0) =
  sum (n N) (fun j => lowsym (c_org f N) i j * w N j) + c_rq s N i.
Proof.
  intros Hi. rewrite <- mv_blk. pose proof (chain_rN eig potrf trsm N nx nu delta bv bak s i) as E. fold f in E. rewrite E.
  assert (EH : sum (n N) (fun j => lowsym (c_RSQ f N) i j * w N j) + sum (n N) (fun j => blk (nu N) (Q N) i j * w N j) = sum (n N) (fun j => lowsym (c_org f N) i j * w N j)).
  { rewrite <- sum_plus. apply sum_ext. intros j Hj. rewrite <- Rmult_plus_distr_r. f_equal. apply (chain_HN eig potrf trsm N nx nu delta bv bak s i j Hi Hj). }
  lra.
Qed.
(** multipliers of the original problem *)
Lemma lagr_shift (w pi pi' con : nat -> vecR) k i : dynamic N nx nu (c_BAbt s) bv w ->
  (forall k j, (k < N)%nat -> (j < nx (k + 1))%nat -> pi k j = pi' k j + sum (nx (k + 1)) (fun b => Q (k + 1) j b * w (k + 1)%nat (nu (k + 1) + b)%nat)) ->
  not_x0 N nx nu k i ->
  lagr N nx nu (c_org f) (c_rq s) (c_BAbt s) pi con w k i = lagr N nx nu (c_RSQ f) (c_rq f) (c_BAbt s) pi' con w k i.
Proof.
  intros Hd HP (Hk & Hi & H0). unfold lagr.
  assert (EP : (if (0 <? k)%nat && (nu k <=? i)%nat then pi (k - 1)%nat (i - nu k)%nat else 0) =
    (if (0 <? k)%nat && (nu k <=? i)%nat then pi' (k - 1)%nat (i - nu k)%nat else 0) + (if (nu k <=? i)%nat then sum (nx k) (fun b => Q k (i - nu k)%nat b * w k (nu k + b)%nat) else 0)).
  { destruct (Nat.leb_spec (nu k) i); [|rewrite !andb_false_r; lra].
    assert (0 < k)%nat as K by (destruct H0 as [|H0]; [assumption|]; destruct k; lia). destruct (Nat.ltb_spec 0 k); [|lia]. cbn [andb].
    rewrite (HP (k - 1)%nat) by (try rewrite Nat.sub_add; lia). rewrite Nat.sub_add by lia. reflexivity. }
  rewrite EP. destruct (Nat.ltb_spec k N) as [L|L].
  - pose proof (row_diff k w i L Hi Hd) as E.
    rewrite (sum_ext (nx (k + 1)) (fun l => c_BAbt s k i l * pi k l) (fun l => c_BAbt s k i l * pi' k l + c_BAbt s k i l * sum (nx (k + 1)) (fun b => Q (k + 1) l b * w (k + 1)%nat (nu (k + 1) + b)%nat))).
    2:{ intros l Hl. rewrite (HP k l L Hl). ring. }
    rewrite sum_plus. lra.
  - assert (k = N) as -> by lia. pose proof (row_last w i Hi) as E. lra.
Qed.
End Equiv.

(** correct_dual_sol *)
Section Dual.
Variable nbu nbx ng : nat -> nat.
Variable idxb : nat -> nat -> nat.
Variable DCt : nat -> matR.
Variable ux lam : nat -> vecR.
Variable f : cmem real.
Local Notation dual_stage := (dual_stage (A := real) nx nu nbu nbx ng idxb DCt ux lam).
Let con := ineq_grad (fun k => nbu k + nbx k)%nat ng idxb DCt lam.

Lemma vecad_val m (x : vecR) idx (z : vecR) i : vecad_sp (A := real) m x idx z i = z i + sum m (fun a => if (idx a =? i)%nat then x a else 0).
Proof.
  induction m as [|m IH]. { change (z i = z i + 0). lra. }
  change (vecad_sp (A := real) (S m) x idx z i) with (vset (A := real) (vecad_sp (A := real) m x idx z) (idx m) (vecad_sp (A := real) m x idx z (idx m) + x m) i).
  rewrite sum_S. unfold vset. rewrite (Nat.eqb_sym i (idx m)). destruct (Nat.eqb_spec (idx m) i) as [E|E]; [|rewrite IH; lra].
  transitivity (vecad_sp (A := real) m x idx z i + x m); [rewrite E; reflexivity|]. rewrite IH. apply Rplus_assoc.
Qed.
Lemma dual_val hn k (pn tmp : vecR) i : (nu k <= i)%nat -> (i < n k)%nat ->
  dual_stage hn f k pn tmp i = sum (n k) (fun j => lowsym (c_org f k) i j * ux k j) + c_org f k (n k) i
    + (if hn then sum (nx (k + 1)) (fun l => c_BAbt f k i l * pn l) else 0) + con k i.
Proof.
  intros Hl Hi. unfold CvxModel.dual_stage. unfold gemv_n_at at 1. unfold inblk. bools. rewrite vsum_sum.
  assert (E : symv_l (A := real) (n k) (c_org f k) (ux k) (vecad_sp (A := real) (nbu k + nbx k) (lam_diff (A := real) nbu nbx ng lam k) (idxb k) (rowex_at (A := real) (nx k) (c_org f k) (n k) (nu k) tmp)) i
    = c_org f k (n k) i + sum (nbu k + nbx k) (fun a => if (idxb k a =? i)%nat then lam k (nbu k + nbx k + ng k + a)%nat - lam k a else 0) + sum (n k) (fun j => lowsym (c_org f k) i j * ux k j)).
  { unfold symv_l. bools. rewrite vsum_sum, vecad_val. unfold rowex_at, inblk. bools.
    match goal with |- @eq _ ?a ?b => change (@eq R a b) end.
    rewrite (sum_ext (nbu k + nbx k) (fun a => if (idxb k a =? i)%nat then lam_diff (A := real) nbu nbx ng lam k a else 0) (fun a => if (idxb k a =? i)%nat then lam k (nbu k + nbx k + ng k + a)%nat - lam k a else 0)).
    2:{ intros a _. destruct (idxb k a =? i)%nat; [|reflexivity]. unfold lam_diff. change (- (1) * lam k a + lam k (nbu k + nbx k + ng k + a)%nat = lam k (nbu k + nbx k + ng k + a)%nat - lam k a). lra. }
    reflexivity. }
  assert (EG : sum (ng k) (fun j => DCt k i j * lam_diff (A := real) nbu nbx ng lam k (nbu k + nbx k + j)%nat) = sum (ng k) (fun g => DCt k i g * (lam k (nbu k + nbx k + ng k + (nbu k + nbx k) + g)%nat - lam k (nbu k + nbx k + g)%nat))).
  { apply sum_ext. intros g _. unfold lam_diff. rewrite Nat.add_assoc.
    change (DCt k i g * (- (1) * lam k (nbu k + nbx k + g)%nat + lam k (nbu k + nbx k + ng k + (nbu k + nbx k) + g)%nat) = DCt k i g * (lam k (nbu k + nbx k + ng k + (nbu k + nbx k) + g)%nat - lam k (nbu k + nbx k + g)%nat)). ring. }
  unfold con, ineq_grad. destruct hn.
  - unfold gemv_n_at, inblk. bools. rewrite vsum_sum, E.
    match goal with |- @eq _ ?a ?b => change (@eq R a b) end.
    transitivity (c_org f k (n k) i + sum (nbu k + nbx k) (fun a => if (idxb k a =? i)%nat then lam k (nbu k + nbx k + ng k + a)%nat - lam k a else 0) + sum (n k) (fun j => lowsym (c_org f k) i j * ux k j)
       + sum (nx (k + 1)) (fun l => c_BAbt f k i l * pn l) + sum (ng k) (fun j => DCt k i j * lam_diff (A := real) nbu nbx ng lam k (nbu k + nbx k + j)%nat)); [reflexivity|]. rewrite EG. match goal with |- @eq _ ?a ?b => change (@eq R a b) end. ring.
  - rewrite E. transitivity (c_org f k (n k) i + sum (nbu k + nbx k) (fun a => if (idxb k a =? i)%nat then lam k (nbu k + nbx k + ng k + a)%nat - lam k a else 0) + sum (n k) (fun j => lowsym (c_org f k) i j * ux k j)
       + sum (ng k) (fun j => DCt k i j * lam_diff (A := real) nbu nbx ng lam k (nbu k + nbx k + j)%nat)); [reflexivity|]. rewrite EG. match goal with |- @eq _ ?a ?b => change (@eq R a b) end. ring.
Qed.
Variable tmp0 : vecR.
Variable pi0 : nat -> vecR.
Let body (i : nat) (tp : vecR * (nat -> vecR)) := let k := (N - 1 - i)%nat in
  let tmp := dual_stage true f k (snd tp k) (fst tp) in (tmp, setk (k - 1)%nat (take_pi (A := real) nx nu k tmp (snd tp (k - 1)%nat)) (snd tp)).
Let start := (dual_stage false f N (fun _ => 0) tmp0, setk (N - 1)%nat (take_pi (A := real) nx nu N (dual_stage false f N (fun _ => 0) tmp0) (pi0 (N - 1)%nat)) pi0).
Let dl i := loop i body start.
Definition final_pi : nat -> vecR := snd (cvx_correct (A := real) N nx nu nbu nbx ng idxb DCt ux lam f tmp0 pi0).
Lemma final_dl : final_pi = snd (dl (N - 1)).
Proof.
  unfold final_pi, cvx_correct. fold start. change (@n0 real) with 0. fold start. fold body. change (snd (let '(_, p) := dl (N - 1) in (loop (N + 1) (fun k r => setk k (rowex (A := real) (n k) (c_org f k) (n k) (r k)) r) (c_rq f), p)) = snd (dl (N - 1))).
  destruct (dl (N - 1)); reflexivity.
Qed.
Lemma dl_keep i d m : (i + d <= N - 1)%nat -> (N - 1 - i <= m)%nat -> snd (dl (i + d)) m = snd (dl i) m.
Proof.
  induction d as [|d IH]; intros H1 H2. { rewrite Nat.add_0_r. reflexivity. }
  rewrite Nat.add_succ_r. change (dl (S (i + d))) with (body (i + d) (dl (i + d))). unfold body. cbn [snd]. unfold setk. destruct (Nat.eqb_spec m (N - 1 - (i + d) - 1)); [lia|]. apply IH; lia.
Qed.
Lemma final_val k j : (0 < k)%nat -> (k <= N)%nat -> (j < nx k)%nat ->
  final_pi (k - 1)%nat j = sum (n k) (fun i => lowsym (c_org f k) (nu k + j) i * ux k i) + c_org f k (n k) (nu k + j)
    + (if (k <? N)%nat then sum (nx (k + 1)) (fun l => c_BAbt f k (nu k + j) l * final_pi k l) else 0) + con k (nu k + j).
Proof.
  intros H0 Hk Hj. rewrite final_dl. destruct (Nat.eq_dec k N) as [->|NE].
  - pose proof (dl_keep 0 (N - 1) (N - 1)) as E. rewrite Nat.add_0_l in E. rewrite E by lia. clear E. change (snd (dl 0)) with (snd start). unfold start. cbn [snd]. unfold setk. rewrite Nat.eqb_refl. unfold take_pi. bools. rewrite dual_val by lia. rewrite Rplus_0_r. ring.
  - assert (k < N)%nat as L by lia. pose proof (dl_keep (N - k) (k - 1) (k - 1)) as E. replace (N - k + (k - 1))%nat with (N - 1)%nat in E by lia. rewrite E by lia. clear E.
    pose proof (dl_keep (N - 1 - k) k k) as E. replace (N - 1 - k + k)%nat with (N - 1)%nat in E by lia. rewrite E by lia. clear E.
    replace (N - k)%nat with (S (N - 1 - k)) by lia. change (dl (S (N - 1 - k))) with (body (N - 1 - k) (dl (N - 1 - k))). unfold body. cbn [snd].
    replace (N - 1 - (N - 1 - k))%nat with k by lia. unfold setk. rewrite Nat.eqb_refl. unfold take_pi. bools. rewrite dual_val by lia. reflexivity.
Qed.
(** in the rows of the states the recovered multipliers make the Lagrangian stationary, whatever the QP solution *)
Lemma dual_stationary k j r : (0 < k)%nat -> (k <= N)%nat -> (j < nx k)%nat -> (forall i, (i < n k)%nat -> c_org f k (n k) i = r k i) ->
  lagr N nx nu (c_org f) r (c_BAbt f) final_pi con ux k (nu k + j) = 0.
Proof.
  intros H0 Hk Hj Hr. unfold lagr. bools; rewrite Nat.add_sub_swap, Nat.sub_diag, Nat.add_0_l, (final_val k j H0 Hk Hj), Hr by lia; bools; ring.
Qed.
Lemma final_rq k j : (k <= N)%nat -> (j < n k)%nat -> fst (cvx_correct (A := real) N nx nu nbu nbx ng idxb DCt ux lam f tmp0 pi0) k j = c_org f k (n k) j.
Proof.
  intros Hk Hj. unfold cvx_correct. destruct (loop (N - 1) _ _) as [a b]. cbn [fst].
  assert (G : forall t, loop t (fun k r => setk k (rowex (A := real) (n k) (c_org f k) (n k) (r k)) r) (c_rq f) k j = if (k <? t)%nat then c_org f k (n k) j else c_rq f k j).
  { induction t as [|t IH]; [reflexivity|]. cbn [loop]. unfold setk at 1. destruct (Nat.eqb_spec k t) as [->|].
    - unfold rowex. bools; reflexivity.
    - rewrite IH. bools; reflexivity. }
  rewrite G. bools; reflexivity.
Qed.
End Dual.

(** a KKT point of the convexified QP becomes one of the original QP *)
Section Kkt.
Variable s : cmem real.
Variable nbu nbx ng : nat -> nat.
Variable idxb : nat -> nat -> nat.
Variable DCt : nat -> matR.
Variable ux lam : nat -> vecR.
Hypothesis ND : forall k, (k < N)%nat -> (nx (k + 1) <= nx k)%nat.
Let f := cvx_regularize (A := real) eig potrf trsm N nx nu delta bv s.
Let con := ineq_grad (fun k => nbu k + nbx k)%nat ng idxb DCt lam.
Variable tmp0 : vecR.
Variable pi0 : nat -> vecR.
Let pi := final_pi nbu nbx ng idxb DCt ux lam f tmp0 pi0.
Variable pi' : nat -> vecR.
Hypothesis HD : dynamic N nx nu (c_BAbt s) bv ux.
Hypothesis HK : forall k i, not_x0 N nx nu k i -> lagr N nx nu (c_RSQ f) (c_rq f) (c_BAbt s) pi' con ux k i = 0.
Let Q k := QB eig potrf trsm N nx nu delta bv true s k.
Lemma lagr_BA H r p k i : (i < n k)%nat -> lagr N nx nu H r (c_BAbt f) p con ux k i = lagr N nx nu H r (c_BAbt s) p con ux k i.
Proof.
  intros Hi. unfold lagr. do 3 f_equal. destruct (Nat.ltb_spec k N); [|reflexivity]. apply sum_ext. intros l _. f_equal.
  apply (chain_BA eig potrf trsm N nx nu delta bv true s k i l); assumption.
Qed.
Lemma pi_shift k j : (k < N)%nat -> (j < nx (k + 1))%nat -> pi k j = pi' k j + sum (nx (k + 1)) (fun b => Q (k + 1) j b * ux (k + 1)%nat (nu (k + 1) + b)%nat).
Proof.
  assert (G : forall d k j, (k + d = N - 1)%nat -> (k < N)%nat -> (j < nx (k + 1))%nat -> pi k j = pi' k j + sum (nx (k + 1)) (fun b => Q (k + 1) j b * ux (k + 1)%nat (nu (k + 1) + b)%nat)).
  { clear k j. induction d as [d IH] using lt_wf_ind. intros k j Hd Hk Hj.
    (* the shifted multipliers, equal to pi beyond k *)
    assert (B : forall k' j, (k < k')%nat -> (k' < N)%nat -> (j < nx (k' + 1))%nat -> pi k' j = pi' k' j + sum (nx (k' + 1)) (fun b => Q (k' + 1) j b * ux (k' + 1)%nat (nu (k' + 1) + b)%nat)).
    { intros k' j' L1 L2 L3. apply (IH (N - 1 - k')%nat); lia. }
    set (ps := fun k j => pi' k j + sum (nx (k + 1)) (fun b => Q (k + 1) j b * ux (k + 1)%nat (nu (k + 1) + b)%nat)).
    assert (NX : not_x0 N nx nu (k + 1) (nu (k + 1) + j)) by (unfold not_x0; repeat split; lia).
    pose proof (lagr_shift true s ND (or_introl eq_refl) ux ps pi' con (k + 1) (nu (k + 1) + j) HD (fun _ _ _ _ => eq_refl) NX) as E.
    change (lagr N nx nu (c_org f) (c_rq s) (c_BAbt s) ps con ux (k + 1) (nu (k + 1) + j) = lagr N nx nu (c_RSQ f) (c_rq f) (c_BAbt s) pi' con ux (k + 1) (nu (k + 1) + j)) in E. rewrite HK in E by exact NX.
    pose proof (dual_stationary nbu nbx ng idxb DCt ux lam f tmp0 pi0 (k + 1) j (c_rq s) ltac:(lia) ltac:(lia) Hj) as S1.
    specialize (S1 (fun i Hi => chain_row eig potrf trsm N nx nu delta bv true s (k + 1) i eq_refl ltac:(lia) Hi)). fold pi con in S1.
    rewrite lagr_BA in S1 by lia. unfold lagr in E, S1.
    assert (EE : (if (k + 1 <? N)%nat then sum (nx (k + 1 + 1)) (fun l => c_BAbt s (k + 1)%nat (nu (k + 1) + j)%nat l * ps (k + 1)%nat l) else 0) =
                 (if (k + 1 <? N)%nat then sum (nx (k + 1 + 1)) (fun l => c_BAbt s (k + 1)%nat (nu (k + 1) + j)%nat l * pi (k + 1)%nat l) else 0)).
    { destruct (Nat.ltb_spec (k + 1) N); [|reflexivity]. apply sum_ext. intros l Hl. f_equal. symmetry. apply B; lia. }
    rewrite EE in E. rewrite (proj2 (Nat.leb_le _ _)) in E, S1 by lia. rewrite (proj2 (Nat.ltb_lt 0 (k + 1))) in E, S1 by lia. cbn [andb] in E, S1.
    rewrite Nat.add_sub in E, S1. rewrite (Nat.add_comm (nu (k + 1)) j), Nat.add_sub in E, S1. unfold ps in E. lra. }
  intros Hk Hj. apply (G (N - 1 - k)%nat); lia.
Qed.
Lemma kkt k i : not_x0 N nx nu k i -> lagr N nx nu (c_org f) (c_rq s) (c_BAbt s) pi con ux k i = 0.
Proof.
  intros NX. pose proof (lagr_shift true s ND (or_introl eq_refl) ux pi pi' con k i HD pi_shift NX) as E.
  change (lagr N nx nu (c_org f) (c_rq s) (c_BAbt s) pi con ux k i = lagr N nx nu (c_RSQ f) (c_rq f) (c_BAbt s) pi' con ux k i) in E. rewrite E. apply HK, NX.
Qed.
End Kkt.

(** without a projection the original Hessian is the given one *)
Lemma org_kept s k i j : (forall t, (t < N)%nat -> needs (A := real) eig nx nu bv true (N - 1 - t) (sweep true true true t s) = false) ->
  (k <= N)%nat -> (i < n k)%nat -> (j < n k)%nat -> c_org (cvx_regularize (A := real) eig potrf trsm N nx nu delta bv s) k i j = c_RSQ s k i j.
Proof.
  intros HN Hk Hi Hj. unfold cvx_regularize. destruct (Nat.eq_dec k N) as [->|NE].
  - destruct (sweep_last eig potrf trsm N nx nu delta bv true true true s) as (_ & E2 & _). rewrite E2. unfold last_stage. cbn [c_org]. unfold setk. rewrite Nat.eqb_refl.
    unfold gecp, inblk, rowin. bools; rewrite ?Nat.sub_0_r in *; try lia; reflexivity.
  - assert (k < N)%nat as L by lia. destruct (sweep_done eig potrf trsm N nx nu delta bv true true true k s L) as (_ & E2 & _). rewrite E2.
    set (p := before eig potrf trsm N nx nu delta bv true true true k s). destruct (before_same eig potrf trsm N nx nu delta bv true true true k s L) as (S1 & _). fold p in S1. rewrite <- S1.
    change (setk k (st_org (A := real) eig nx nu bv true true k p) (c_org p) k i j = c_RSQ p k i j). unfold setk. rewrite Nat.eqb_refl.
    pose proof (HN (N - 1 - k)%nat ltac:(lia)) as E. replace (N - 1 - (N - 1 - k))%nat with k in E by lia. fold (before eig potrf trsm N nx nu delta bv true true true k s) in E. fold p in E.
    unfold st_org. rewrite E. unfold gecp, inblk. bools. rewrite !Nat.sub_0_r. apply in_in. exact Hi.
Qed.
End P.
Lemma objective_same eig potrf trsm N nx nu delta bv (s : cmem real) : (forall k, (k < N)%nat -> (nx (k + 1) <= nx k)%nat) ->
  let f := cvx_regularize (A := real) eig potrf trsm N nx nu delta bv s in
  forall w w', dynamic N nx nu (c_BAbt s) bv w -> dynamic N nx nu (c_BAbt s) bv w' ->
  (forall j, (j < nx 0%nat)%nat -> w 0%nat (nu 0%nat + j)%nat = w' 0%nat (nu 0%nat + j)%nat) ->
  objective N nx nu (c_org f) (c_rq s) w' - objective N nx nu (c_org f) (c_rq s) w = objective N nx nu (c_RSQ f) (c_rq f) w' - objective N nx nu (c_RSQ f) (c_rq f) w.
Proof.
  intros ND f w w' Hw Hw' E0. pose proof (objective_diff eig potrf trsm N nx nu delta bv true s ND (or_introl eq_refl) w Hw) as E1.
  pose proof (objective_diff eig potrf trsm N nx nu delta bv true s ND (or_introl eq_refl) w' Hw') as E2.
  change (sweep (A := real) eig potrf trsm N nx nu delta bv true true true N s) with f in E1, E2.
  assert (EQ : forall q, quad (nx 0%nat) q (fun j => w 0%nat (nu 0%nat + j)%nat) = quad (nx 0%nat) q (fun j => w' 0%nat (nu 0%nat + j)%nat)).
  { intros q. unfold quad. apply sum_ext. intros i Hi. apply sum_ext. intros j Hj. rewrite (E0 i Hi), (E0 j Hj). reflexivity. }
  rewrite EQ in E1. lra.
Qed.
