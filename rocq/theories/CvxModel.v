(** Convexification of the stage Hessians: ocp_nlp_reg_convexify.c:516-902.
    The three routines regularize (:516-650), regularize_lhs (:655-738) and regularize_rhs (:742-827)
    are textual copies of each other that differ in three statements: whether rq is put in the last row
    of RSQrq (:529, :553), whether RSQrq is copied to original_RSQrq inside the loop (:555), and whether
    rq is taken out again (:577).  They are modelled by one function with three flags.
    Oracles: [eig] is acados_eigen_decomposition (math.c:1098-1111), [potrf] and [trsm] are
    blasfeo_dpotrf_l and blasfeo_dtrsm_rltn.  blasfeo matrices are functions of row and column. *)
From Coq Require Import ZArith List Bool.
From Verif Require Import Arith Vec LinModel RegModel IrkModel.

Section C.
Variable A : arith.
Notation T := (num A).
Notation vec := (nat -> T).
Notation mat := (nat -> nat -> T).
Local Open Scope num_scope.

Variable eig : nat -> mat -> mat * vec.
Variable potrf : nat -> mat -> mat.
Variable trsm : nat -> nat -> mat -> mat -> mat.
(** dims->N, dims->nx, dims->nu (ocp_nlp_reg_common.h) and opts->delta *)
Variable N : nat.
Variable nx nu : nat -> nat.
Variable delta : T.

(** the memory ocp_nlp_reg_convexify.c:100-290 as far as it is carried from one statement to the next:
    RSQrq, original_RSQrq, rq, BAbt (pointers into the QP) and the work matrices Q_bar and BAQ *)
Record cmem := mkCM { c_RSQ : nat -> mat; c_org : nat -> mat; c_rq : nat -> vec; c_BAbt : nat -> mat; c_Qbar : mat; c_BAQ : mat }.
Variable bv : nat -> vec.

Definition setk {B} (k : nat) (v : B) (f : nat -> B) : nat -> B := fun i => if (i =? k)%nat then v else f i.
(** blasfeo_drowin(m, 1.0, v, 0, M, r, 0) and blasfeo_drowex(m, 1.0, M, r, 0, v, 0) *)
Definition rowin (m : nat) (v : vec) (r : nat) (M : mat) : mat := fun i j => if (i =? r)%nat && (j <? m)%nat then v j else M i j.
Definition rowex (m : nat) (M : mat) (r : nat) (v : vec) : vec := fun j => if (j <? m)%nat then M r j else v j.
(** the block of M that starts at (o, o) *)
Definition sub (o p : nat) (M : mat) : mat := fun i j => M (o + i)%nat (p + j)%nat.
(** blasfeo_dgese 0.0, blasfeo_ddiare delta: delta_eye, :536-537, :619-620 *)
Definition delta_eye : mat := fun i j => if (i =? j)%nat then delta else 0.
(** blasfeo_dgemm_nt(m, n, k, 1.0, X, Y, 0.0, D, D) *)
Definition gemm_nt (m n k : nat) (X Y D : mat) : mat := fun i j =>
  if (i <? m)%nat && (j <? n)%nat then vsum k (fun l => X i l * Y j l) else D i j.
(** blasfeo_dsyrk_ln_mn(m, n, k, 1.0, X, Y, 1.0, D, D): the lower triangle of the m x n block *)
Definition syrk_ln_mn (m n k : nat) (X Y D : mat) : mat := fun i j =>
  if (i <? m)%nat && (j <? n)%nat && (j <=? i)%nat then D i j + vsum k (fun l => X i l * Y j l) else D i j.
(** blasfeo_dsyrk_ln(m, k, 1.0, X, X, 1.0, C, D at (o, o)) *)
Definition syrk_ln_at (m k : nat) (X C D : mat) (o : nat) : mat := fun i j =>
  if inblk o m i && inblk o m j && (j <=? i)%nat then C (i - o)%nat (j - o)%nat + vsum k (fun l => X (i - o)%nat l * X (j - o)%nat l) else D i j.

(** :585-588 *)
Definition any_below (n : nat) (d : vec) : bool := loop n (fun j f => if d j <? ncst 1 (-10) then true else f) false.

(** :529-547; the backup :530 is made by all three routines *)
Definition last_stage (ins : bool) (s : cmem) : cmem :=
  let n := (nu N + nx N)%nat in
  let M := if ins then rowin n (c_rq s N) n (c_RSQ s N) else c_RSQ s N in
  let O := gecp (n + 1) n M (c_org s N) 0 0 in
  let Q := gecp (nx N) (nx N) (sub (nu N) (nu N) M) (c_Qbar s) 0 0 in
  let M := gecp (nx N) (nx N) delta_eye M (nu N) (nu N) in
  let Q := gead (nx N) (nx N) (- (1)) delta_eye Q 0 0 in
  mkCM (setk N M (c_RSQ s)) (setk N O (c_org s)) (c_rq s) (c_BAbt s) (symmetrise (nx N) Q) (c_BAQ s).

(** :551-577 up to the extraction of the gradient: BAbt with b, RSQrq with rq, BAQ and the updated RSQrq *)
Definition st_BAbt (k : nat) (s : cmem) : mat := rowin (nx (k + 1)%nat) (bv k) (nu k + nx k) (c_BAbt s k).
Definition st_in (ins : bool) (k : nat) (s : cmem) : mat :=
  if ins then rowin (nu k + nx k) (c_rq s k) (nu k + nx k) (c_RSQ s k) else c_RSQ s k.
Definition st_BAQ (k : nat) (s : cmem) : mat := gemm_nt (nu k + nx k) (nx k) (nx (k + 1)%nat) (st_BAbt k s) (c_Qbar s) (c_BAQ s).
Definition st_upd (ins : bool) (k : nat) (s : cmem) : mat :=
  syrk_ln_mn (nu k + nx k + 1) (nu k + nx k) (nx (k + 1)%nat) (st_BAbt k s) (st_BAQ k s) (st_in ins k s).
(** :582-588; blasfeo_unpack_dmat is column-major, the decomposition indexes R[i*dim+j] *)
Definition needs (ins : bool) (k : nat) (s : cmem) : bool := any_below (nu k) (snd (eig (nu k) (fun i j => st_upd ins k s j i))).
(** :590-602 *)
Definition st_reg (ins : bool) (k : nat) (s : cmem) : mat :=
  if needs ins k s then dense (nu k + nx k) (acados_project eig (nu k + nx k) (ncst 1 (-4))) (st_upd ins k s) else st_upd ins k s.
Definition st_org (ins bak : bool) (k : nat) (s : cmem) : mat :=
  let n := (nu k + nx k)%nat in
  let O := if bak then gecp (n + 1) n (st_in ins k s) (c_org s k) 0 0 else c_org s k in
  if needs ins k s then gead n n (- (1)) (gead n n (- (1)) (st_reg ins k s) (st_upd ins k s) 0 0) O 0 0 else O.
(** :612-622 *)
Definition st_St (M : mat) (k : nat) : mat := trsm (nx k) (nu k) (potrf (nu k) M) (sub (nu k) 0 M).
Definition st_out (ins : bool) (k : nat) (s : cmem) : mat :=
  syrk_ln_at (nx k) (nu k) (st_St (st_reg ins k s) k) delta_eye (st_reg ins k s) (nu k).
(** :549-647 *)
Definition stage (ins bak ext : bool) (k : nat) (s : cmem) : cmem :=
  let n := (nu k + nx k)%nat in
  let Q := gecp (nx k) (nx k) (sub (nu k) (nu k) (st_reg ins k s)) (c_Qbar s) 0 0 in
  let Q := gead (nx k) (nx k) (- (1)) (sub (nu k) (nu k) (st_out ins k s)) Q 0 0 in
  mkCM (setk k (st_out ins k s) (c_RSQ s)) (setk k (st_org ins bak k s) (c_org s))
       (if ext then setk k (rowex n (st_upd ins k s) n (c_rq s k)) (c_rq s) else c_rq s)
       (setk k (st_BAbt k s) (c_BAbt s)) (symmetrise (nx k) Q) (st_BAQ k s).

Definition sweep (ins bak ext : bool) (t : nat) (s : cmem) : cmem := loop t (fun t s => stage ins bak ext (N - 1 - t) s) (last_stage ins s).
(** :516-650 *)
Definition cvx_regularize (s : cmem) : cmem := sweep true true true N s.
(** :655-738 *)
Definition cvx_lhs (s : cmem) : cmem := sweep false true false N s.
(** :742-827; :757-760 first restores RSQrq *)
Definition restore (s : cmem) : cmem :=
  mkCM (loop (N + 1) (fun k R => setk k (gecp (nu k + nx k + 1) (nu k + nx k) (c_org s k) (R k) 0 0) R) (c_RSQ s)) (c_org s) (c_rq s) (c_BAbt s) (c_Qbar s) (c_BAQ s).
Definition cvx_rhs (s : cmem) : cmem := sweep true false true N (restore s).

(** the constraint part of the QP and its multipliers, :835-902 *)
Variable nbu nbx ng : nat -> nat.
Variable idxb : nat -> nat -> nat.
Variable DCt : nat -> mat.
Variable ux lam : nat -> vec.

(** :876 blasfeo_daxpy *)
Definition lam_diff (k : nat) : vec := fun i => - (1) * lam k i + lam k (nbu k + nbx k + ng k + i)%nat.
(** blasfeo_dvecad_sp(m, 1.0, x, 0, idx, z, 0) *)
Definition vecad_sp (m : nat) (x : vec) (idx : nat -> nat) (z : vec) : vec := loop m (fun i z => vset z (idx i) (z (idx i) + x i)) z.
(** blasfeo_dsymv_l reads the lower triangle *)
Definition symv_l (m : nat) (M : mat) (x z : vec) : vec := fun i =>
  if (i <? m)%nat then z i + vsum m (fun j => (if (j <=? i)%nat then M i j else M j i) * x j) else z i.
(** blasfeo_dgemv_n(m, n, 1.0, M at row o, x at xo, 1.0, z at o, z at o) *)
Definition gemv_n_at (m n : nat) (M : mat) (o : nat) (x : vec) (xo : nat) (z : vec) : vec := fun i =>
  if inblk o m i then z i + vsum n (fun j => M i j * x (xo + j)%nat) else z i.
(** rowex at offset: blasfeo_drowex(nx, 1.0, M, r, nu, z, nu) *)
Definition rowex_at (m : nat) (M : mat) (r o : nat) (z : vec) : vec := fun j => if inblk o m j then M r j else z j.

(** one stage of the recursion, :874-884 with [has_next] false, :890-897 with [has_next] true; [tmp] is tmp_nuxM *)
Definition dual_stage (has_next : bool) (s : cmem) (k : nat) (pi_next tmp : vec) : vec :=
  let n := (nu k + nx k)%nat in
  let z := rowex_at (nx k) (c_org s k) n (nu k) tmp in
  let z := vecad_sp (nbu k + nbx k) (lam_diff k) (idxb k) z in
  let z := symv_l n (c_org s k) (ux k) z in
  let z := if has_next then gemv_n_at (nx k) (nx (k + 1)%nat) (c_BAbt s k) (nu k) pi_next 0 z else z in
  gemv_n_at (nx k) (ng k) (DCt k) (nu k) (lam_diff k) (nbu k + nbx k) z.
(** blasfeo_dveccp(nx, tmp, nu, pi[k-1], 0) *)
Definition take_pi (k : nat) (tmp pi : vec) : vec := fun j => if (j <? nx k)%nat then tmp (nu k + j)%nat else pi j.
(** :853-902; returns rq, pi *)
Definition cvx_correct (s : cmem) (tmp : vec) (pi : nat -> vec) : (nat -> vec) * (nat -> vec) :=
  let rq := loop (N + 1) (fun k r => setk k (rowex (nu k + nx k) (c_org s k) (nu k + nx k) (r k)) r) (c_rq s) in
  let tmp := dual_stage false s N (fun _ => 0) tmp in
  let pi := setk (N - 1)%nat (take_pi N tmp (pi (N - 1)%nat)) pi in
  let '(_, pi) := loop (N - 1) (fun i tp => let k := (N - 1 - i)%nat in
     let tmp := dual_stage true s k (snd tp k) (fst tp) in (tmp, setk (k - 1)%nat (take_pi k tmp (snd tp (k - 1)%nat)) (snd tp))) (tmp, pi) in
  (rq, pi).
End C.
Arguments mkCM {A}. Arguments c_RSQ {A}. Arguments c_org {A}. Arguments c_rq {A}. Arguments c_BAbt {A}. Arguments c_Qbar {A}. Arguments c_BAQ {A}.
Arguments rowin {A}. Arguments rowex {A}. Arguments sub {A}. Arguments delta_eye {A}. Arguments gemm_nt {A}. Arguments syrk_ln_mn {A}. Arguments syrk_ln_at {A}.
Arguments any_below {A}. Arguments last_stage {A}. Arguments st_BAbt {A}. Arguments st_in {A}. Arguments st_BAQ {A}. Arguments st_upd {A}. Arguments needs {A}.
Arguments st_reg {A}. Arguments st_org {A}. Arguments st_St {A}. Arguments st_out {A}. Arguments stage {A}. Arguments sweep {A}. Arguments cvx_regularize {A}.
Arguments cvx_lhs {A}. Arguments restore {A}. Arguments cvx_rhs {A}. Arguments lam_diff {A}. Arguments vecad_sp {A}. Arguments symv_l {A}. Arguments gemv_n_at {A}.
Arguments rowex_at {A}. Arguments dual_stage {A}. Arguments take_pi {A}. Arguments cvx_correct {A}.
