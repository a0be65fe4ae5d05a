(** What the constraint data of a stage should be, stated without the offsets used by the code. *)
From Coq Require Import ZArith List Bool.
From Verif Require Import FP Arr ArrProofs DimsModel BghModel.
Import ListNotations.
Open Scope Z_scope.

Definition bfield_eqb (f g : bfield) : bool :=
  match f, g with
  | lbu, lbu | lbx, lbx | lg, lg | lh, lh | ubu, ubu | ubx, ubx | ug, ug | uh, uh | ls, ls | us, us | lsbu, lsbu | lsbx, lsbx | lsg, lsg | lsh, lsh
  | usbu, usbu | usbx, usbx | usg, usg | ush, ush => true
  | _, _ => false
  end.
Definition ifield_eqb (f g : ifield) : bool :=
  match f, g with
  | idxbu, idxbu | idxbx, idxbx | idxsbu, idxsbu | idxsbx, idxsbx | idxsg, idxsg | idxsh, idxsh | idxbue, idxbue | idxbxe, idxbxe | idxge, idxge | idxhe, idxhe | idxsrev, idxsrev => true
  | _, _ => false
  end.
(** the constraints in order: lower bounds (inputs, states, linear, nonlinear), upper bounds, then lower and upper slack bounds;
    slack bounds are given per kind of constraint, or, when slacks are declared by idxs_rev, as a whole *)
Definition order_idx : list bfield := [lbu; lbx; lg; lh; ubu; ubx; ug; uh; lsbu; lsbx; lsg; lsh; usbu; usbx; usg; ush].
Definition order_rev : list bfield := [lbu; lbx; lg; lh; ubu; ubx; ug; uh; ls; us].
Definition bsize (dm : cdims) (f : bfield) : Z :=
  match f with
  | lbu | ubu => dm cNbu | lbx | ubx => dm cNbx | lg | ug => dm cNg | lh | uh => dm cNh | ls | us => dm cNs
  | lsbu | usbu => dm cNsbu | lsbx | usbx => dm cNsbx | lsg | usg => dm cNsg | lsh | ush => dm cNsh
  end.
Definition order_b : list ifield := [idxbu; idxbx].
Definition order_s : list ifield := [idxsbu; idxsbx; idxsg; idxsh].
Definition order_e : list ifield := [idxbue; idxbxe; idxge; idxhe].
Definition isize (dm : cdims) (f : ifield) : Z :=
  match f with
  | idxbu => dm cNbu | idxbx => dm cNbx | idxsbu => dm cNsbu | idxsbx => dm cNsbx | idxsg => dm cNsg | idxsh => dm cNsh
  | idxbue => dm cNbue | idxbxe => dm cNbxe | idxge => dm cNge | idxhe => dm cNhe | idxsrev => dm cNb + dm cNg + dm cNh
  end.
(** position of the first entry of block f: the sizes of the blocks before it *)
Fixpoint place {K} (eqb : K -> K -> bool) (size : K -> Z) (order : list K) (f : K) : Z :=
  match order with nil => 0 | g :: r => if eqb g f then 0 else size g + place eqb size r f end.
Definition bplace dm order f := place bfield_eqb (bsize dm) order f.
Definition iplace dm order f := place ifield_eqb (isize dm) order f.
(** number of constraints before those of the kind that an index field refers to: indices given within a kind become indices of all constraints;
    state indices in idxb become indices of (u, x) *)
Definition ishift (dm : cdims) (f : ifield) : Z :=
  match f with
  | idxbx => dm cNu
  | idxsbx | idxbxe => dm cNbu | idxsg | idxge => dm cNbu + dm cNbx | idxsh | idxhe => dm cNbu + dm cNbx + dm cNg
  | _ => 0
  end.

Definition wf (dm : cdims) : Prop := (forall f, 0 <= dm f) /\ dm cNb = dm cNbu + dm cNbx.
Definition declared (dm : cdims) (order : list bfield) : Prop :=
  order = order_idx /\ dm cNs = dm cNsbu + dm cNsbx + dm cNsg + dm cNsh \/ order = order_rev.
(** arrays of the right sizes *)
Definition shaped (dm : cdims) (m : bgh) : Prop :=
  len (bd m) = 2 * (dm cNb + dm cNg + dm cNh + dm cNs) /\ len (bmask m) = 2 * (dm cNb + dm cNg + dm cNh + dm cNs) /\
  len (idxb m) = dm cNb /\ len (idxs m) = dm cNs /\ len (idxs_rev m) = dm cNb + dm cNg + dm cNh /\
  len (idxe m) = dm cNbue + dm cNbxe + dm cNge + dm cNhe /\ len (DCt m) = (dm cNu + dm cNx) * dm cNg.
(** as created: bounds zero, all active *)
Definition fresh (dm : cdims) (m : bgh) : Prop :=
  shaped dm m /\ (forall k x, aget (bd m) k = Some x -> x = f0) /\ (forall k x, aget (bmask m) k = Some x -> x = f1).
(** the caller provides enough values, and does not mix the two ways to declare slacks *)
Definition valid (dm : cdims) (order : list bfield) (c : setcall) : Prop :=
  match c with
  | SetB f v => In f order /\ bsize dm f <= len v
  | SetI f v => (In f order_s -> order = order_idx) /\ isize dm f <= len v
  | SetC v => dm cNg * dm cNx <= len v
  | SetD v => dm cNg * dm cNu <= len v
  end.
(** value k of a field: what the last call that set the field gave *)
Definition nthz {A} (v : list A) (k : Z) (x : A) : A := match aget v k with Some y => y | None => x end.
Definition lastb (h : list setcall) (f : bfield) (k : Z) : double :=
  fold_left (fun x c => match c with SetB g v => if bfield_eqb g f then nthz v k x else x | _ => x end) h f0.
Definition lasti (h : list setcall) (f : ifield) (k : Z) : Z :=
  fold_left (fun x c => match c with SetI g v => if ifield_eqb g f then nthz v k x else x | _ => x end) h 0.
Definition given (h : list setcall) (f : ifield) : bool := existsb (fun c => match c with SetI g _ => ifield_eqb g f | _ => false end) h.
(** entry (i, j) of the matrices: values are column major *)
Definition lastC (dm : cdims) (h : list setcall) (i j : Z) (x : double) : double :=
  fold_left (fun x c => match c with SetC v => nthz v (i + dm cNg * j) x | _ => x end) h x.
Definition lastD (dm : cdims) (h : list setcall) (i j : Z) (x : double) : double :=
  fold_left (fun x c => match c with SetD v => nthz v (i + dm cNg * j) x | _ => x end) h x.
(** a bound that does not restrict anything: lower bounds (of constraints and of slacks) at or below minus infinity, upper bounds at or above infinity *)
Definition is_upper (f : bfield) : bool := match f with ubu | ubx | ug | uh => true | _ => false end.
Definition unbounded (f : bfield) (x : double) : bool := if is_upper f then fle (fz2 10000000000 0) x else fle x (fopp (fz2 10000000000 0)).

(** the index array that a field belongs to, and the fields of that array in order *)
Definition arr (f : ifield) (m : bgh) : list Z :=
  match f with idxbu | idxbx => idxb m | idxsbu | idxsbx | idxsg | idxsh => idxs m | idxbue | idxbxe | idxge | idxhe => idxe m | idxsrev => idxs_rev m end.
Definition iorder (f : ifield) : list ifield :=
  match f with idxbu | idxbx => order_b | idxsbu | idxsbx | idxsg | idxsh => order_s | idxbue | idxbxe | idxge | idxhe => order_e | idxsrev => [idxsrev] end.
(** address of entry (r, c) of DCt, a matrix with nu+nx rows *)
Definition adr (dm : cdims) (r c : Z) : Z := r + c * (dm cNu + dm cNx).

(** the data m is what the history h of calls, starting from m0, says it should be *)
Definition reflects (dm : cdims) (order : list bfield) (m0 : bgh) (h : list setcall) (m : bgh) : Prop :=
  shaped dm m /\
  (forall f k, In f order -> 0 <= k < bsize dm f ->
    aget (bd m) (bplace dm order f + k) = Some (lastb h f k) /\
    aget (bmask m) (bplace dm order f + k) = Some (if unbounded f (lastb h f k) then f0 else f1)) /\
  (forall f k, (In f order_s -> order = order_idx) -> 0 <= k < isize dm f ->
    aget (arr f m) (iplace dm (iorder f) f + k) = if given h f then Some (ishift dm f + lasti h f k) else aget (arr f m0) (iplace dm (iorder f) f + k)) /\
  use_idxs_rev m = given h idxsrev || use_idxs_rev m0 /\
  (forall i j x, 0 <= i < dm cNg -> 0 <= j < dm cNx -> aget (DCt m0) (adr dm (dm cNu + j) i) = Some x -> aget (DCt m) (adr dm (dm cNu + j) i) = Some (lastC dm h i j x)) /\
  (forall i j x, 0 <= i < dm cNg -> 0 <= j < dm cNu -> aget (DCt m0) (adr dm j i) = Some x -> aget (DCt m) (adr dm j i) = Some (lastD dm h i j x)).
