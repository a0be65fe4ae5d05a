From Coq Require Import ZArith List Bool Arith Lia Reals Lra.
From Coquelicot Require Import Coquelicot.
From Verif Require Import Arith Vec LinModel CollModel CollTop RSum Poly InterpProofs BghAdjProofs MeritGradProofs IrkModel IrkSpec IrkProofs IrkSens IrkFwd IrkTop IrkZModel IrkZSpec.
Import ListNotations.
Open Scope R_scope.

Lemma nev_derive (x : vecR) (xx : R) (Q : R -> vecR) (dQ : vecR) n : (forall j, (j <= n)%nat -> is_derive (fun e => Q e j) 0 (dQ j)) ->
  forall d j, (j + d <= n)%nat -> is_derive (fun e => nev x (Q e) d j xx) 0 (nev x dQ d j xx).
Proof.
  intros H. induction d as [|d IH]; intros j Hj; [apply H; lia|]. cbn [nev].
  pose proof (IH (S j) ltac:(lia)) as A. pose proof (IH j ltac:(lia)) as B.
  set (al := (xx - x j) / (x (j + S d)%nat - x j)). set (be := - ((xx - x (j + S d)%nat) / (x (j + S d)%nat - x j))).
  assert (E : forall p q, ((xx - x j) * p - (xx - x (j + S d)%nat) * q) / (x (j + S d)%nat - x j) = al * p + be * q) by (intros; unfold al, be, Rdiv; ring).
  rewrite E. apply (is_derive_ext (fun e => al * nev x (Q e) d (S j) xx + be * nev x (Q e) d j xx)); [intros; now rewrite E|].
  apply plus_der; apply scal_der; assumption.
Qed.
Lemma nev_ext (x Q Q' : vecR) xx n : (forall j, (j <= n)%nat -> Q j = Q' j) -> forall d j, (j + d <= n)%nat -> nev x Q d j xx = nev x Q' d j xx.
Proof. intros H. induction d as [|d IH]; intros j Hj; [apply H; lia|]. cbn [nev]. rewrite !IH by lia. reflexivity. Qed.
Lemma nev_lin (x : vecR) xx m (Q : matR) (w : vecR) : forall d j, nev x (fun k => sum m (fun c => Q k c * w c)) d j xx = sum m (fun c => nev x (fun k => Q k c) d j xx * w c).
Proof.
  induction d as [|d IH]; intros j; [reflexivity|]. cbn [nev]. rewrite !IH. rewrite <- !sum_scal, <- sum_minus. unfold Rdiv. rewrite <- sum_scal_r. apply sum_ext. intros; ring.
Qed.
Lemma nev_opp (x Q : vecR) xx : forall d j, nev x (fun k => - Q k) d j xx = - nev x Q d j xx.
Proof. induction d as [|d IH]; intros j; [reflexivity|]. cbn [nev]. rewrite !IH. unfold Rdiv. ring. Qed.
Lemma interp_nev (o : irk_opts real) (v : vecR) : interp o v = nev (o_c o) v (o_ns o - 1) 0 0.
Proof. unfold interp, neville. exact (nev_loop 0 (o_ns o - 1) (o_c o) v (o_ns o - 1) (Nat.le_refl _) 0%nat ltac:(lia)). Qed.
Lemma interp_poly (o : irk_opts real) (v a : vecR) : (0 < o_ns o)%nat -> distinct (o_ns o) (o_c o) -> (forall j, (j < o_ns o)%nat -> poly (o_ns o - 1) a (o_c o j) = v j) -> interp o v = poly (o_ns o - 1) a 0.
Proof. intros Hn D H. apply neville_interpolates; [|intros; apply H; lia]. intros i j Hij. apply D. lia. Qed.

Section S.
Variable M : irk_model real.
Variable o : irk_opts real.
Variable inp : irk_in real.
Variable lu : nat -> matR -> vecR -> vecR.
Notation nx := (o_nx o). Notation nu := (o_nu o). Notation nz := (o_nz o). Notation ns := (o_ns o).
Notation nf := (nx + nz)%nat.
Notation x0 := (n_x inp). Notation u := (n_u inp). Notation t0 := (n_t0 inp).
Lemma z_start_poly (K a : vecR) i : (0 < ns)%nat -> distinct ns (o_c o) -> through_z o K i a -> z_start o K i = poly (ns - 1) a 0.
Proof. intros Hn D H. unfold z_start. apply interp_poly; try assumption. intros j Hj. rewrite (H j Hj). f_equal. lia. Qed.

Lemma dxdotz_row (xd z y : vecR) q : sum nf (fun k => dxdotz M o inp xd z q k * y k) = sum nx (fun c => m_fk M x0 xd u z t0 q c * y c) + sum nz (fun c => m_fz M x0 xd u z t0 q c * y (nx + c)%nat).
Proof.
  rewrite sum_split. unfold dxdotz. f_equal; apply sum_ext; intros c Hc.
  - rewrite (proj2 (Nat.ltb_lt c nx) Hc). reflexivity.
  - rewrite (proj2 (Nat.ltb_ge (nx + c) nx)) by lia. replace (nx + c - nx)%nat with c by lia. reflexivity.
Qed.
Lemma rhs_rowz (xd z d : vecR) q : sum (nx + nu) (fun k => dk0_rhs M o inp xd z q k * d k) = sum nx (fun c => m_fx M x0 xd u z t0 q c * d c) + sum nu (fun c => m_fu M x0 xd u z t0 q c * d (nx + c)%nat).
Proof.
  rewrite sum_split. unfold dk0_rhs. f_equal; apply sum_ext; intros c Hc.
  - rewrite (proj2 (Nat.ltb_lt c nx) Hc). reflexivity.
  - rewrite (proj2 (Nat.ltb_ge (nx + c) nx)) by lia. replace (nx + c - nx)%nat with c by lia. reflexivity.
Qed.
Hypothesis XL : xdot_linear M nx nu nz.
Lemma index_k (k k' z : vecR) : index_one M nx nz x0 k u z t0 -> index_one M nx nz x0 k' u z t0.
Proof.
  destruct XL as [E [_ [Ek [_ [_ Ez]]]]]. intros H yk yz Hy. apply H. intros q Hq. rewrite <- (Hy q Hq). f_equal; apply sum_ext; intros c Hc.
  - rewrite !Ek by assumption. reflexivity.
  - rewrite (Ez x0 k u z t0), (Ez x0 k' u z t0) by assumption. reflexivity.
Qed.
Lemma index_nonsing (k z : vecR) : index_one M nx nz x0 k u z t0 -> nonsing nf (dxdotz M o inp k z).
Proof.
  intros H y Hy j Hj. destruct (H y (fun c => y (nx + c)%nat)) as [A B].
  - intros q Hq. rewrite <- dxdotz_row. now apply Hy.
  - destruct (Nat.lt_ge_cases j nx) as [L|L]; [now apply A|]. specialize (B (j - nx)%nat ltac:(lia)). cbn beta in B. now replace (nx + (j - nx))%nat with j in B by lia.
Qed.
Hypothesis LU : lu_ok nf lu.
Hypothesis I1 : forall z, index_one M nx nz x0 (fun _ => 0) u z t0.
Lemma ns_all (k z : vecR) : nonsing nf (dxdotz M o inp k z).
Proof. apply index_nonsing. apply (index_k (fun _ => 0)). apply I1. Qed.

Lemma step_is_newton (F : matR) (xd z r : vecR) (z' : vecR) : r = lu nf (dxdotz M o inp xd z) (m_f M x0 xd u z t0) -> z' = (fun k => if (k <? nz)%nat then z k - r (nx + k)%nat else z k) ->
  z_newton_step M nx nz x0 u t0 z z'.
Proof.
  intros -> ->. exists (fun c => xd c - lu nf (dxdotz M o inp xd z) (m_f M x0 xd u z t0) c). intros q Hq. set (r := lu nf (dxdotz M o inp xd z) (m_f M x0 xd u z t0)).
  pose proof (LU (dxdotz M o inp xd z) (m_f M x0 xd u z t0) (ns_all xd z) q Hq) as L. fold r in L. rewrite dxdotz_row in L.
  destruct XL as [E [Ef [Ek [_ [_ Ez]]]]]. rewrite Ef in L by exact Hq. rewrite Ef by exact Hq.
  rewrite (sum_ext nx (fun c => m_fk M x0 xd u z t0 q c * r c) (fun c => E t0 q c * r c)) in L by (intros; rewrite Ek by assumption; reflexivity).
  rewrite (sum_ext nz _ (fun c => - (m_fz M x0 (fun _ => 0) u z t0 q c * r (nx + c)%nat))).
  - rewrite (sum_ext nz _ (fun c => m_fz M x0 (fun _ => 0) u z t0 q c * r (nx + c)%nat)) in L by (intros; rewrite Ez by assumption; reflexivity).
    rewrite sum_opp. rewrite (sum_ext nx (fun c => E t0 q c * (xd c - r c)) (fun c => E t0 q c * xd c - E t0 q c * r c)) by (intros; ring). rewrite sum_minus. lra.
  - intros c Hc. rewrite (proj2 (Nat.ltb_lt c nz) Hc). rewrite (Ez x0 (fun c => xd c - r c)) by assumption. change (@nsub real) with Rminus. ring.
Qed.
Lemma z_newton_steps (JR : o_jac_reuse o = false) : forall n it F r xd z, exists zz : nat -> vecR, zz 0%nat = z /\ zz n = snd (z_newton M o inp lu n it F r xd z) /\
  forall i, (i < n)%nat -> z_newton_step M nx nz x0 u t0 (zz i) (zz (S i)).
Proof.
  induction n as [|n IH]; intros it F r xd z; [exists (fun _ => z); repeat split; lia|]. cbn [z_newton]. rewrite JR, orb_true_r. cbn [negb orb].
  match goal with |- context [z_newton M o inp lu n (S it) ?F' ?r' ?xd' ?z'] => set (zn := z'); destruct (IH (S it) F' r' xd' zn) as [zz [Z0 [Zn Zs]]] end.
  exists (fun i => match i with O => z | S i => zz i end). repeat split; [exact Zn|]. intros [|i] Hi; [|apply Zs; lia]. rewrite Z0.
  apply (step_is_newton F xd z (lu nf (dxdotz M o inp xd z) (m_f M x0 xd u z t0))); reflexivity.
Qed.

(** implicit function theorem *)
Variable p : vecR. Variable MM : vecR -> irk_model real.
Hypothesis MP : MM p = M.
Hypothesis HC : irk_consistent MM nx nu nz (o_np o).
Lemma S_exact_derive (xd zn : vecR) (X Kc U Z : R -> vecR) (d dK dZ : vecR) :
  (forall r, (r < nx)%nat -> is_derive (fun e => X e r) 0 (d r)) -> (forall c, (c < nu)%nat -> is_derive (fun e => U e c) 0 (d (nx + c)%nat)) ->
  (forall r, (r < nx)%nat -> is_derive (fun e => Kc e r) 0 (dK r)) -> (forall r, (r < nz)%nat -> is_derive (fun e => Z e r) 0 (dZ r)) ->
  agree nx (X 0) x0 -> agree nu (U 0) u -> agree nz (Z 0) zn -> locally 0 (fun e => forall q, (q < nf)%nat -> m_f M (X e) (Kc e) (U e) (Z e) t0 q = 0) ->
  forall i, (i < nz)%nat -> dZ i = sum (nx + nu) (fun c => S_exact M o inp lu xd zn i c * d c).
Proof.
  intros DX DU DK DZ X0 U0 Z0 HZ.
  set (y := fun k => sum (nx + nu) (fun c => lu nf (dxdotz M o inp xd zn) (fun r => dk0_rhs M o inp xd zn r c) k * d c)).
  assert (Y : forall q, (q < nf)%nat -> sum nf (fun k => dxdotz M o inp xd zn q k * y k) = sum (nx + nu) (fun c => dk0_rhs M o inp xd zn q c * d c)).
  { intros q Hq. unfold y. rewrite sum_lin. apply sum_ext. intros c Hc. f_equal. exact (LU _ (fun r => dk0_rhs M o inp xd zn r c) (ns_all xd zn) q Hq). }
  assert (V : nonsing nf (dxdotz M o inp xd zn)) by apply ns_all.
  set (w := fun k => (if (k <? nx)%nat then dK k else dZ (k - nx)%nat) + y k).
  assert (W : forall k, (k < nf)%nat -> w k = 0).
  { apply V. intros q Hq. rewrite (sum_ext nf _ (fun k => dxdotz M o inp xd zn q k * (if (k <? nx)%nat then dK k else dZ (k - nx)%nat) + dxdotz M o inp xd zn q k * y k)) by (intros; unfold w; ring).
    rewrite sum_plus, Y by exact Hq. rewrite dxdotz_row, rhs_rowz.
    assert (DP : forall c, (c < o_np o)%nat -> is_derive (fun _ : R => p c) 0 ((fun _ => 0) c)) by (intros; apply (is_derive_const (V := R_NormedModule) (p c) 0)).
    pose proof (ic_diff _ _ _ _ _ HC (fun _ => p) X Kc U Z (fun _ => 0) d dK (fun c => d (nx + c)%nat) dZ t0 DP DX DK DU DZ q Hq) as D. cbv beta in D. rewrite MP in D.
    assert (D0 : is_derive (fun e => m_f M (X e) (Kc e) (U e) (Z e) t0 q) 0 0).
    { apply (is_derive_locally_eq (fun _ => 0)); [|apply (is_derive_const (V := R_NormedModule) 0 0)]. generalize HZ. apply filter_imp. intros e He. exact (He q Hq). }
    pose proof (is_derive_unique _ _ _ D) as V1. rewrite (is_derive_unique _ _ _ D0) in V1. rewrite (sum_zero (o_np o)) in V1 by (intros; ring).
    pose proof (ic_loc _ _ _ _ _ HC p (X 0) x0 (Kc 0) (Kc 0) (U 0) u (Z 0) zn t0 X0 (fun _ _ => eq_refl) U0 Z0) as [L1 [L2 [L3 [L4 _]]]]. rewrite MP in *.
    destruct XL as [E [Ef [Ek [Ex [Eu Ez]]]]]. 
    rewrite (sum_ext nx (fun c => m_fx M (X 0) _ _ _ _ q c * d c) (fun c => m_fx M x0 xd u zn t0 q c * d c)) in V1
      by (intros c Hc; rewrite L1 by assumption; rewrite (Ex x0 (Kc 0)), (Ex x0 xd) by assumption; reflexivity).
    rewrite (sum_ext nx (fun c => m_fk M (X 0) _ _ _ _ q c * dK c) (fun c => m_fk M x0 xd u zn t0 q c * (if (c <? nx)%nat then dK c else dZ (c - nx)%nat))) in V1
      by (intros c Hc; rewrite !Ek by assumption; rewrite (proj2 (Nat.ltb_lt c nx) Hc); reflexivity).
    rewrite (sum_ext nu (fun c => m_fu M (X 0) _ _ _ _ q c * _) (fun c => m_fu M x0 xd u zn t0 q c * d (nx + c)%nat)) in V1
      by (intros c Hc; rewrite L3 by assumption; rewrite (Eu x0 (Kc 0)), (Eu x0 xd) by assumption; reflexivity).
    rewrite (sum_ext nz (fun c => m_fz M (X 0) _ _ _ _ q c * dZ c) (fun c => m_fz M x0 xd u zn t0 q c * (if (nx + c <? nx)%nat then dK (nx + c)%nat else dZ (nx + c - nx)%nat))) in V1
      by (intros c Hc; rewrite L4 by assumption; rewrite (Ez x0 (Kc 0)), (Ez x0 xd) by assumption; rewrite (proj2 (Nat.ltb_ge (nx + c) nx)) by lia; replace (nx + c - nx)%nat with c by lia; reflexivity).
    lra. }
  intros i Hi. specialize (W (nx + i)%nat ltac:(lia)). unfold w in W. rewrite (proj2 (Nat.ltb_ge (nx + i) nx)) in W by lia. replace (nx + i - nx)%nat with i in W by lia.
  replace (dZ i) with (- y (nx + i)%nat) by lra. unfold y, S_exact. rewrite <- sum_opp. apply sum_ext. intros c Hc.
  change (@nopp real) with Ropp. change (@nmul real) with Rmult. change (@n1 real) with 1. ring.
Qed.
End S.
