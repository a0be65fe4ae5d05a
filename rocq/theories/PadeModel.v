(** The matrix exponential of acados/utils/math.c: padeapprox (:445-747), onenorm (:414-432), expm (:749-830). *)
From Coq Require Import ZArith List Bool.
From Verif Require Import Arith Vec LinModel.
Import ListNotations.

Section P.
Variable A : arith.
Notation T := (num A).
Notation mat := (nat -> nat -> T).
Local Open Scope num_scope.

(** the coefficient arrays [c] of padeapprox (:458, :497, :541, :599-600, :663-676) *)
Definition pade_table (m : nat) : list Z :=
  match m with
  | 3%nat => [120; 60; 12; 1]%Z
  | 5%nat => [30240; 15120; 3360; 420; 30; 1]%Z
  | 7%nat => [17297280; 8648640; 1995840; 277200; 25200; 1512; 56; 1]%Z
  | 9%nat => [17643225600; 8821612800; 2075673600; 302702400; 30270240; 2162160; 110880; 3960; 90; 1]%Z
  | 13%nat => [64764752532480000; 32382376266240000; 7771770303897600; 1187353796428800; 129060195264000; 10559470521600;
           670442572800; 33522128640; 1323241920; 40840800; 960960; 16380; 182; 1]%Z
  | _ => []
  end.
Definition pc (m k : nat) : T := ncst (nth k (pade_table m) 0%Z) 0.

Definition zeros : mat := fun _ _ => 0.
(** A0: the identity *)
Definition ident : mat := fun i j => if (i =? j)%nat then 1 else 0.

(** :456-492; [garb] is the content of the freshly malloc'ed, never initialised array temp (:470) *)
Definition uv3 (n : nat) (garb X : mat) : mat * mat :=
  let X2 := dgemm n X X in
  let temp := daxpy (pc 3 1) ident (daxpy (pc 3 3) X2 (dscal 0 garb)) in
  let U := dgemm n X temp in
  let V := daxpy (pc 3 0) ident (daxpy (pc 3 2) X2 (dscal 0 zeros)) in
  (U, V).
(** :493-536 *)
Definition uv5 (n : nat) (X : mat) : mat * mat :=
  let X2 := dgemm n X X in
  let X4 := dgemm n X2 X2 in
  let temp := daxpy (pc 5 1) ident (daxpy (pc 5 3) X2 X4) in
  let U := dgemm n X temp in
  let V := daxpy (pc 5 0) ident (daxpy (pc 5 2) X2 (dscal (pc 5 4) X4)) in
  (U, V).
(** :537-594 *)
Definition uv7 (n : nat) (X : mat) : mat * mat :=
  let X2 := dgemm n X X in
  let X4 := dgemm n X2 X2 in
  let X6 := dgemm n X4 X2 in
  let temp := daxpy (pc 7 7) X6 (daxpy (pc 7 5) X4 (daxpy (pc 7 1) ident (daxpy (pc 7 3) X2 (dscal 0 zeros)))) in
  let U := dgemm n X temp in
  let V := daxpy (pc 7 6) X6 (daxpy (pc 7 4) X4 (daxpy (pc 7 0) ident (daxpy (pc 7 2) X2 (dscal 0 zeros)))) in
  (U, V).
(** :595-660 *)
Definition uv9 (n : nat) (X : mat) : mat * mat :=
  let X2 := dgemm n X X in
  let X4 := dgemm n X2 X2 in
  let X6 := dgemm n X4 X2 in
  let X8 := dgemm n X6 X2 in
  let temp := daxpy (pc 9 7) X6 (daxpy (pc 9 5) X4 (daxpy (pc 9 1) ident (daxpy (pc 9 3) X2 X8))) in
  let U := dgemm n X temp in
  let V := daxpy (pc 9 6) X6 (daxpy (pc 9 4) X4 (daxpy (pc 9 0) ident (daxpy (pc 9 2) X2 (dscal (pc 9 8) X8)))) in
  (U, V).
(** :661-744.  :728 scales V by c[8]; V is then overwritten by dgemm_nn_3l at :736. *)
Definition uv13 (n : nat) (X : mat) : mat * mat :=
  let X2 := dgemm n X X in
  let X4 := dgemm n X2 X2 in
  let X6 := dgemm n X4 X2 in
  let U := daxpy (pc 13 13) X6 (daxpy (pc 13 11) X4 (dscal (pc 13 9) X2)) in
  let temp := dgemm n X6 U in
  let temp := daxpy (pc 13 1) ident (daxpy (pc 13 3) X2 (daxpy (pc 13 5) X4 (daxpy (pc 13 7) X6 temp))) in
  let U := dgemm n X temp in
  let temp := X2 in
  let V := dscal (pc 13 8) zeros in
  let temp := daxpy (pc 13 10) X4 (daxpy (pc 13 12) X6 temp) in
  let V := dgemm n X6 temp in
  let V := daxpy (pc 13 0) ident (daxpy (pc 13 2) X2 (daxpy (pc 13 4) X4 (daxpy (pc 13 6) X6 V))) in
  (U, V).
(** any other degree exits the process (:745-749): [None] *)
Definition pade_uv (m n : nat) (garb X : mat) : option (mat * mat) :=
  match m with 3%nat => Some (uv3 n garb X) | 5%nat => Some (uv5 n X) | 7%nat => Some (uv7 n X) | 9%nat => Some (uv9 n X) | 13%nat => Some (uv13 n X) | _ => None end.
(** :750-768: A = V + U, D = V - U, dgesv_3l(D, A); info is not looked at *)
Definition padeapprox (m n : nat) (garb X : mat) : option mat :=
  match pade_uv m n garb X with
  | Some (U, V) => Some (fst (dgesv n n (daxpy (- (1)) U V) (daxpy 1 U V) (fun _ => 0%nat)))
  | None => None
  end.

(** :414-432 onenorm *)
Definition col_norm (row j : nat) (X : mat) : T := fold_left (fun t i => t + nabs (X i j)) (seq 1 (row - 1)) (nabs (X 0%nat j)).
Definition onenorm (row col : nat) (X : mat) : T :=
  loop col (fun j m => let t := col_norm row j X in if (j =? 0)%nat then t else if m <? t then t else m) 0.

(** :771-830 expm.  [frexp x] = (t, s); [pow2 s] = pow(2, s). *)
Variable frexp : T -> T * Z.
Variable pow2 : Z -> T.
Definition thetas : list (nat * T) :=
  [(3%nat, ncst 1495585217958292 (-17)); (5%nat, ncst 2539398330063230 (-16)); (7%nat, ncst 9504178996162932 (-16));
   (9%nat, ncst 2097847961257068 (-15)); (13%nat, ncst 5371920351148152 (-15))].
Definition theta4 : T := ncst 5371920351148152 (-15).
Definition half : T := ncst 5 (-1).
Definition expm_scaling (nrm : T) : Z :=
  let (t, s) := frexp (nrm / theta4) in
  if (t <=? half) && (half <=? t) then (s - 1)%Z else s.
Definition expm (n : nat) (garb X : mat) : option mat :=
  let nrm := onenorm n n X in
  if nrm <=? theta4 then
    match find (fun p => nrm <=? snd p) thetas with
    | Some (m, _) => padeapprox m n garb X
    | None => Some X
    end
  else
    let s := expm_scaling nrm in
    match padeapprox 13 n garb (dscal (pow2 (- s)) X) with
    | Some P => Some (loop (Z.to_nat s) (fun _ P => dgemm n P P) P)
    | None => None
    end.
End P.
Arguments pc {A}. Arguments zeros {A}. Arguments ident {A}. Arguments uv3 {A}. Arguments uv5 {A}. Arguments uv7 {A}. Arguments uv9 {A}. Arguments uv13 {A}.
Arguments pade_uv {A}. Arguments padeapprox {A}. Arguments col_norm {A}. Arguments onenorm {A}. Arguments thetas {A}. Arguments theta4 {A}. Arguments half {A}.
Arguments expm_scaling {A}. Arguments expm {A}.
