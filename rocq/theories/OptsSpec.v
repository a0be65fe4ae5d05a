(** What the exact-Hessian options ask for: the value last given to each, and the sum of the contributions that are switched on. *)
From Coq Require Import ZArith List Bool Reals.
From Verif Require Import Arr Arith OptsModel.
Import ListNotations.
Open Scope Z_scope.

(** the value of the last call for which [f] says so *)
Fixpoint first_set (f : call -> option Z) (d : Z) (h : list call) : Z :=
  match h with [] => d | c :: h => match f c with Some v => v | None => first_set f d h end end.
Definition last_set (f : call -> option Z) (d : Z) (h : list call) : Z := first_set f d (rev h).

Section S.
Variable N : nat.
Variable K : nat -> kinds.
Definition here (i j : nat) (v : Z) : option Z := if (i =? j)%nat then Some v else None.
(** the calls that say whether the dynamics of stage i contribute *)
Definition says_dyn (i : nat) (c : call) : option Z :=
  match c with Exact v | ExactDyn v => if (i <? N)%nat then Some v else None | At j DynHess v => here i j v | _ => None end.
Definition says_constr (i : nat) (c : call) : option Z := match c with Exact v | ExactConstr v => Some v | At j ConstrHess v => here i j v | _ => None end.
Definition says_cost (i : nat) (c : call) : option Z := match c with Exact v | ExactCost v => Some v | At j CostExact v => here i j v | _ => None end.
(** the calls that tell the cost to add: exact_hess, exact_hess_dyn when switching off *)
Definition says_add (i : nat) (c : call) : option Z :=
  match c with
  | Exact v => if (i <? N)%nat then Some (if v =? 0 then 0 else 1) else None
  | ExactDyn v => if (i <? N)%nat && (v =? 0) then Some 0 else None
  | At j CostAdd v => here i j v
  | _ => None
  end.
Definition says_integ (i : nat) (c : call) : option Z := match c with At j CostInteg v => here i j v | _ => None end.
Definition says_dcost (i : nat) (c : call) : option Z := match c with At j DynCost v => here i j v | _ => None end.
Definition says_comp (i : nat) (c : call) : option Z := match c with At j CostComp v => here i j v | _ => None end.

(** calls the modules of the stages know *)
Definition all_stages (p : nat -> bool) : bool := forallb p (seq 0 (N + 1)).
Definition known (c : call) : bool :=
  match c with
  | Exact _ | ExactCost _ => all_stages (fun i => match ck (K i) with CONL => false | _ => true end)
  | ExactDyn _ | ExactConstr _ | Fixed _ => true
  | At i CostExact _ => (i <=? N)%nat && match ck (K i) with CONL => false | _ => true end
  | At i (CostAdd | ConstrHess) _ => (i <=? N)%nat
  | At i CostComp _ => (i <=? N)%nat && match ck (K i) with LS => true | _ => false end
  | At i CostInteg _ => (i <=? N)%nat && match ck (K i) with NLS | CONL => true | _ => false end
  | At i DynHess _ => (i <? N)%nat
  | At i DynCost _ => (i <? N)%nat && match dk (K i) with CONT => true | DISC => false end
  end.

Local Open Scope R_scope.
Definition on (v : Z) (a : R) : R := if (v =? 0)%Z then 0 else a.
(** the part of the cost: the exact Hessian of a nonlinear least-squares cost on request; the integrated cost where the dynamics integrate it *)
Definition cost_part (h : list call) (x : contrib real) (i : nat) (r c : nat) : R :=
  let integrated := match ck (K i) with NLS | CONL => negb (last_set (says_integ i) 0 h =? 0)%Z | _ => false end in
  if integrated then kI x i r c
  else kG x i r c + match ck (K i) with NLS => on (last_set (says_cost i) 0 h) (kE x i r c) | _ => 0 end.
Definition constr_part (h : list call) (x : contrib real) (i : nat) (r c : nat) : R := if has_h (K i) then on (last_set (says_constr i) 0 h) (kK x i r c) else 0.
Definition dyn_part (h : list call) (x : contrib real) (i : nat) (r c : nat) : R := on (last_set (says_dyn i) 0 h) (kD x i r c).
(** the Hessian of stage i *)
Definition asked (h : list call) (x : contrib real) (i : nat) (r c : nat) : R := dyn_part h x i r c + cost_part h x i r c + constr_part h x i r c.
Definition lm_part (x : contrib real) (i r c : nat) : R := if (r =? c)%nat then Rmax 0 (kL x i) else 0.

(** the cost is integrated by the dynamics exactly where the cost module leaves it out *)
Definition integ_ok (h : list call) : Prop := forall i, (i <= N)%nat ->
  ((match ck (K i) with NLS | CONL => last_set (says_integ i) 0 h | _ => 0%Z end) <> 0%Z <-> (i < N)%nat /\ dk (K i) = CONT /\ (0 < last_set (says_dcost i) 0 h)%Z).
(** the dynamics of stage i are on exactly if the cost is told to add *)
Definition in_step (h : list call) (i : nat) : Prop := last_set (says_dyn i) 0 h = 0%Z <-> last_set (says_add i) 0 h = 0%Z.
End S.

(** only the options of ocp_nlp_opts_set, and exact_hess_dyn switched on only where it is on *)
Definition global (c : call) : bool := match c with At _ DynHess _ | At _ CostAdd _ => false | _ => true end.
Definition orderly (h : list call) : Prop := forall h1 v h2, h = h1 ++ ExactDyn v :: h2 -> v <> 0 ->
  last_set (fun c => match c with Exact v | ExactDyn v => Some v | _ => None end) 0 h1 <> 0.
(** the calls among the events *)
Fixpoint calls {A} (es : list (event A)) : list call := match es with [] => [] | Set_ c :: es => c :: calls es | _ :: es => calls es end.
Fixpoint wcalls {A} (es : list (wevent A)) : list call := match es with [] => [] | WSet c :: es => c :: wcalls es | _ :: es => wcalls es end.
