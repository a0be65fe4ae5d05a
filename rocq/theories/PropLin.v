(** Property theorems C27 - C30: dense linear algebra, matrix exponential, interpolation, spectrum bounds. *)
From Coq Require Import ZArith List Bool Reals.
From Verif Require Import FP Arith Vec LinModel PadeModel RSum PadeProofs PadeTop Poly InterpProofs LinCases.
Import ListNotations.
Open Scope R_scope.

(** C27: dgesv_3l solves exactly, or flags; it flags exactly the singular matrices *)
Theorem C27_solver : forall n nrhs (M B : matR) piv X i, dgesv (A := real) n nrhs M B piv = (X, i) ->
  (i = 0%Z -> forall r c, (r < n)%nat -> (c < nrhs)%nat -> sum n (fun k => M r k * X k c) = B r c) /\
  (i <> 0%Z -> (1 <= i <= Z.of_nat n)%Z /\ forall r c, X r c = B r c) /\
  (i <> 0%Z <-> exists v : vecR, (exists k, (k < n)%nat /\ v k <> 0) /\ forall r, (r < n)%nat -> sum n (fun k => M r k * v k) = 0).
Proof. exact dgesv_all. Qed.
Print Assumptions C27_solver.
Example C27_case : let (X, i) := dgesv (A := real) 2 1 ex_M ex_B (fun _ => 0%nat) in i = 0%Z /\ X 0%nat 0%nat = 1 /\ X 1%nat 0%nat = 2.
Proof. exact ex_solve. Qed.
Example C27_case_double : let (X, i) := dgesv (A := dbl) 2 1 exd_M exd_B (fun _ => 0%nat) in
  (i =? 0)%Z && fle (X 0%nat 0%nat) (dz 1) && fle (dz 1) (X 0%nat 0%nat) && fle (X 1%nat 0%nat) (dz 2) && fle (dz 2) (X 1%nat 0%nat) = true.
Proof. exact exd_solve. Qed.

(** C28: for degrees 3, 5, 7, 9 the result solves den * Y = num with the Pade sums of that degree; when the
    denominator is singular the numerator is returned without any notice (info is not looked at) *)
Theorem C28_pade : forall m n garb X, In m [3; 5; 7; 9]%nat ->
  exists Y, padeapprox (A := real) m n garb X = Some Y /\ returns n (pade_den m n X) (pade_num m n X) Y.
Proof. exact pade_correct. Qed.
Print Assumptions C28_pade.
Example C28_case : exists Y, padeapprox (A := real) 3 1 (fun _ _ => 0) (fun _ _ => 1) = Some Y /\ Y 0%nat 0%nat = 193 / 71.
Proof. exact pade3_one. Qed.
(** degree 13 does not: at the 1 x 1 matrix 1 the result is not the Pade approximant *)
Theorem C28_degree13_refuted : exists n X, ~ singular n (pade_den 13 n X) /\
  exists Y, padeapprox (A := real) 13 n (fun _ _ => 0) X = Some Y /\ ~ returns n (pade_den 13 n X) (pade_num 13 n X) Y.
Proof. exact pade13_refuted. Qed.
Print Assumptions C28_degree13_refuted.
(** what degree 13 computes: the same sums with the coefficient of the eighth power replaced by 1 *)
Theorem C28_degree13_actual : forall n garb X,
  exists Y, padeapprox (A := real) 13 n garb X = Some Y /\ returns n (den13 n X) (num13 n X) Y.
Proof. exact pade13_actual. Qed.
Print Assumptions C28_degree13_actual.
(** degree 3 in double arithmetic depends on uninitialised memory: exp(0) may be NaN *)
Theorem C28_degree3_garbage_refuted : exists garb Y, padeapprox (A := dbl) 3 1 garb (fun _ _ => dz 0) = Some Y /\ isnan (Y 0%nat 0%nat) = true.
Proof. exact pade3_garbage. Qed.
Print Assumptions C28_degree3_garbage_refuted.
Example C28_degree3_clean : exists Y, padeapprox (A := dbl) 3 1 (fun _ _ => dz 0) (fun _ _ => dz 0) = Some Y /\ fle (Y 0%nat 0%nat) (dz 1) = true /\ fle (dz 1) (Y 0%nat 0%nat) = true.
Proof. exact pade3_clean. Qed.
(** the norm test of expm: the norm is the largest column sum *)
Theorem C28_norm : forall n (X : matR), (0 < n)%nat ->
  (forall j, (j < n)%nat -> sum n (fun i => Rabs (X i j)) <= onenorm (A := real) n n X) /\
  exists j, (j < n)%nat /\ onenorm (A := real) n n X = sum n (fun i => Rabs (X i j)).
Proof. exact onenorm_max. Qed.
Print Assumptions C28_norm.
(** small norm: the lowest admissible degree is used *)
Theorem C28_expm_degree : forall frexp pow2 n garb X, onenorm (A := real) n n X <= theta4 (A := real) ->
  exists m th, In (m, th) (thetas (A := real)) /\ onenorm (A := real) n n X <= th /\
    (forall m' th', In (m', th') (thetas (A := real)) -> onenorm (A := real) n n X <= th' -> (m <= m')%nat) /\
    expm (A := real) frexp pow2 n garb X = padeapprox (A := real) m n garb X.
Proof. exact expm_small. Qed.
Print Assumptions C28_expm_degree.
(** large norm: the matrix is halved s times until its norm is in (theta/2, theta], and the result is raised to 2^s *)
Theorem C28_expm_scaling : forall (frexp : R -> R * Z) pow2 n garb X,
  (forall x t s, 0 < x -> frexp x = (t, s) -> x = t * powerRZ 2 s /\ 1 / 2 <= t < 1) -> (forall s, pow2 s = powerRZ 2 s) ->
  (0 < n)%nat -> theta4 (A := real) < onenorm (A := real) n n X ->
  exists s P R, (1 <= s)%nat /\ expm (A := real) frexp pow2 n garb X = Some R /\
    theta4 (A := real) / 2 < onenorm (A := real) n n (fun i j => X i j * / 2 ^ s) <= theta4 (A := real) /\
    padeapprox (A := real) 13 n garb (fun i j => X i j * / 2 ^ s) = Some P /\ meq n R (mpow n P (2 ^ s)).
Proof. exact expm_scaled. Qed.
Print Assumptions C28_expm_scaling.

(** C29: Neville's scheme evaluates the interpolating polynomial, which exists and is unique *)
Theorem C29_neville : forall n (x Q : vecR), (forall i j, (i < j <= n)%nat -> x i <> x j) ->
  (exists a, (forall i, (i <= n)%nat -> poly n a (x i) = Q i) /\ forall xx, neville (A := real) xx n x Q = poly n a xx) /\
  forall a, (forall i, (i <= n)%nat -> poly n a (x i) = Q i) -> forall xx, neville (A := real) xx n x Q = poly n a xx.
Proof. exact (fun n x Q D => conj (neville_exists n x Q D) (neville_interpolates n x Q D)). Qed.
Print Assumptions C29_neville.
Example C29_case : neville (A := real) 2 2 (fun i => match i with 0%nat => 0 | 1%nat => 1 | _ => 3 end) (fun i => match i with 0%nat => 0 | 1%nat => 1 | _ => 9 end) = 4.
Proof. exact neville_ex. Qed.

(** C30: Gershgorin estimates *)
Theorem C30_max_abs : forall n (M : matR) lam v, eigenpair n M lam v -> Rabs lam <= gersh_max (A := real) n M.
Proof. exact gersh_max_bounds. Qed.
Print Assumptions C30_max_abs.
Theorem C30_min : forall n (M : matR) lam v, eigenpair n M lam v -> gersh_min (A := real) n M <= lam.
Proof. exact gersh_min_bounds. Qed.
Print Assumptions C30_min.
(** for symmetric matrices the minimum estimate bounds the quadratic form *)
Theorem C30_quadratic_form : forall n (M : matR) (v : vecR), (forall i j, (i < n)%nat -> (j < n)%nat -> M i j = M j i) ->
  gersh_min (A := real) n M * sum n (fun i => v i * v i) <= sum n (fun i => sum n (fun j => v i * M i j * v j)).
Proof. exact gersh_quad. Qed.
Print Assumptions C30_quadratic_form.
Example C30_case : gersh_max (A := real) 2 ex_G = 3 /\ gersh_min (A := real) 2 ex_G = 1 /\ eigenpair 2 ex_G 3 (fun i => if (i =? 0)%nat then 1 else -1) /\ eigenpair 2 ex_G 1 (fun _ => 1).
Proof. exact gersh_ex. Qed.
(** in double arithmetic a NaN entry leaves no trace in the estimates *)
Theorem C30_nan_refuted : exists M : nat -> nat -> double, isnan (M 0%nat 0%nat) = true /\
  isnan (gersh_min (A := dbl) 2 M) = false /\ isnan (gersh_max (A := dbl) 2 M) = false.
Proof. exact gersh_nan_ex. Qed.
Print Assumptions C30_nan_refuted.
