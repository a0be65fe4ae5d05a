(** Butcher tableaux: acados/sim/sim_collocation_utils.c. *)
From Coq Require Import ZArith List Bool.
From Verif Require Import Arith Vec LinModel.
Import ListNotations.

Section C.
Variable A : arith.
Notation T := (num A).
Notation mat := (nat -> nat -> T).
Local Open Scope num_scope.

(** :54-151 lu_system_solve.  The array A[c*dim + r] is the matrix entry (r, c).  There is no test for
    a zero pivot. *)
Record lus := mkLus { ls_A : mat; ls_perm : nat -> nat }.
(** :79-89 pivot search in column i *)
Definition pivot_scan (n i : nat) (X : mat) : nat :=
  snd (loop (n - 1 - i) (fun t (s : T * nat) => let j := (i + 1 + t)%nat in let w := nabs (X j i) in if fst s <? w then (w, j) else s) (nabs (X i i), i)).
(** :90-101 row exchange *)
Definition pivot_swap (n i p : nat) (s : lus) : lus :=
  if (i <? p)%nat then
    mkLus (fun r c => if (c <? n)%nat then (if (r =? i)%nat then ls_A s p c else if (r =? p)%nat then ls_A s i c else ls_A s r c) else ls_A s r c)
          (fun k => if (k =? i)%nat then ls_perm s p else if (k =? p)%nat then ls_perm s i else ls_perm s k)
  else s.
(** :102-109 elimination below row i; every row j > i reads only itself and row i *)
Definition eliminate (n i : nat) (X : mat) : mat := fun j k =>
  if (i <? j)%nat && (j <? n)%nat then
    let l := (- X j i) / X i i in
    if (k =? i)%nat then l else if (i <? k)%nat && (k <? n)%nat then X j k + l * X i k else X j k
  else X j k.
Definition lus_step (n i : nat) (s : lus) : lus :=
  let s := pivot_swap n i (pivot_scan n i (ls_A s)) s in mkLus (eliminate n i (ls_A s)) (ls_perm s).
(** :112-119 the permuted right hand side *)
Definition permute_rhs (perm : nat -> nat) (B : mat) : mat := fun i k => B (perm i) k.
(** :120-130 forward substitution *)
Definition lus_forward (n : nat) (X B : mat) : mat :=
  loop (n - 1) (fun j0 B => let j := S j0 in loop j (fun i B r k => if (r =? j)%nat then B j k + X j i * B i k else B r k) B) B.
(** :131-145 back substitution, i = n-1, ..., 0 and j = n-1, ..., i+1 *)
Definition lus_back (n : nat) (X B : mat) : mat :=
  loop n (fun t B => let i := (n - 1 - t)%nat in
    let B := loop t (fun u B => let j := (n - 1 - u)%nat in fun r k => if (r =? i)%nat then B i k - X i j * B j k else B r k) B in
    fun r k => if (r =? i)%nat then (1 / X i i) * B i k else B r k) B.
Definition lu_system_solve (n : nat) (X B : mat) : mat :=
  let s := loop (n - 1) (lus_step n) (mkLus X (fun k => k)) in
  lus_back n (ls_A s) (lus_forward n (ls_A s) (permute_rhs (ls_perm s) B)).

(** pow with a nonnegative integer exponent, idealised as repeated multiplication *)
Fixpoint npow (x : T) (k : nat) : T := match k with O => 1 | S k => x * npow x k end.
Definition of_nat (k : nat) : T := ncst (Z.of_nat k) 0.
Definition unit_mat : mat := fun i j => if (i =? j)%nat then 1 else 0.

(** :480-530 calculate_butcher_tableau_from_nodes.  [bt_rhs j i] is rhs[i*ns + j] after the solve;
    [bt_A i k] is A[i*ns + k], the weight of stage derivative i in stage k. *)
Definition bt_rhs (ns : nat) (c : nat -> T) : mat := lu_system_solve ns (fun i j => npow (c i) j) unit_mat.
Definition bt_A (ns : nat) (c : nat -> T) (i k : nat) : T := vsum ns (fun j => npow (c k) (j + 1) / of_nat (j + 1) * bt_rhs ns c j i).
Definition bt_b (ns : nat) (c : nat -> T) (i : nat) : T := vsum ns (fun j => 1 / of_nat (j + 1) * bt_rhs ns c j i).

(** :246-330 gauss_radau_iia_nodes: the table, in units of 1e-20; nodes[ns-1] = 1 *)
Definition radau_table (ns : nat) : list Z :=
  match ns with
  | 1%nat => [100000000000000000000]%Z
  | 2%nat => [33333333333333337034; 100000000000000000000]%Z
  | 3%nat => [15505102572168222297; 64494897427831787695; 100000000000000000000]%Z
  | 4%nat => [8858795951270420632; 40946686444073465694; 78765946176084700170; 100000000000000000000]%Z
  | 5%nat => [5710419611451822419; 27684301363812369168; 58359043236891683382; 86024013565621926247; 100000000000000000000]%Z
  | 6%nat => [3980985705146905529; 19801341787360787761; 43797481024738621480; 69546427335363603106; 90146491420117347282; 100000000000000000000]%Z
  | 7%nat => [2931642715978521885; 14807859966848435640; 33698469028115418666; 55867151877155019069; 76923386203005450490; 92694567131974103802; 100000000000000000000]%Z
  | 8%nat => [2247938643871305597; 11467905316090415413; 26578982278458951338; 45284637366944457959; 64737528288683043876; 81975930826310761113; 94373743946307731001; 100000000000000000000]%Z
  | 9%nat => [1777991514736393386; 9132360789979432347; 21430847939563035798; 37193216458327238438; 54518668480342658000; 71317524285556954666; 85563374295785443735; 95536604471003006012; 100000000000000000000]%Z
  | _ => []
  end.
Definition radau_node (ns i : nat) : T := ncst (nth i (radau_table ns) 0%Z) (-20).

(** :209-246 gauss_legendre_nodes: one pass of the while loop on one node.  The components y[i] do not
    interact except through [err].  The initial guess (cos, sin) is not modelled. *)
Fixpoint legendre (k : nat) (y : T) : T :=
  match k with
  | O => 1
  | S k1 => match k1 with O => y | S k2 => (of_nat (2 * k - 1) * y * legendre k1 y - of_nat (k - 1) * legendre k2 y) / of_nat k end
  end.
(** :226 N = ns - 1, N1 = ns, N2 = ns + 1; pow(y, 2) as y*y *)
Definition gl_der (ns : nat) (y : T) : T := of_nat (ns + 1) * (legendre (ns - 1) y - y * legendre ns y) / (1 - y * y).
Definition gl_step (ns : nat) (y : T) : T := y - legendre ns y / gl_der ns y.
(** :240-242 nodes on [0, 1] *)
Definition gl_node (y : T) : T := 0 * (1 - y) + ncst 5 (-1) * 1 * (1 + y).

(** :557-640 get_explicit_butcher_tableau; [None] for any other stage number (exit).
    Entries A[i + ns*j] as rows i of the lists. *)
Definition q (m e : Z) : T := ncst m e.
Definition explicit_tableau (ns : nat) : option (list (list T) * list T * list T) :=
  match ns with
  | 1%nat => Some ([[q 0 0]], [q 1 0], [q 0 0])
  | 2%nat => Some ([[q 0 0; q 0 0]; [q 5 (-1); q 0 0]], [q 0 0; q 1 0], [q 0 0; q 5 (-1)])
  | 3%nat => Some ([[q 0 0; q 0 0; q 0 0]; [q 5 (-1); q 0 0; q 0 0]; [q (-1) 0; q 2 0; q 0 0]],
                   [q 1 0 / q 6 0; q 2 0 / q 3 0; q 1 0 / q 6 0], [q 0 0; q 5 (-1); q 1 0])
  | 4%nat => Some ([[q 0 0; q 0 0; q 0 0; q 0 0]; [q 5 (-1); q 0 0; q 0 0; q 0 0]; [q 0 0; q 5 (-1); q 0 0; q 0 0]; [q 0 0; q 0 0; q 1 0; q 0 0]],
                   [q 1 0 / q 6 0; q 1 0 / q 3 0; q 1 0 / q 3 0; q 1 0 / q 6 0], [q 0 0; q 5 (-1); q 5 (-1); q 1 0])
  | _ => None
  end.
End C.
Arguments mkLus {A}. Arguments ls_A {A}. Arguments ls_perm {A}. Arguments pivot_scan {A}. Arguments pivot_swap {A}. Arguments eliminate {A}. Arguments lus_step {A}.
Arguments permute_rhs {A}. Arguments lus_forward {A}. Arguments lus_back {A}. Arguments lu_system_solve {A}. Arguments npow {A}. Arguments of_nat {A}. Arguments unit_mat {A}.
Arguments bt_rhs {A}. Arguments bt_A {A}. Arguments bt_b {A}. Arguments radau_node {A}. Arguments legendre {A}. Arguments gl_der {A}. Arguments gl_step {A}. Arguments gl_node {A}. Arguments q {A}. Arguments explicit_tableau {A}.
