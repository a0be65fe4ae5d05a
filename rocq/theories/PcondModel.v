(** Options of partial condensing: ocp_qp_partial_condensing.c:155-360, the generated acados_solver.in.c:2706-2726 and :3061-3090.

    Sizes of other objects, the options of HPIPM and the dimensions of the condensed QP are left out; reducing the equality
    constraints keeps the horizon; d_part_cond_qp_compute_block_size is a parameter. *)
From Coq Require Import ZArith List Bool.
From Verif Require Import Arr.
Import ListNotations.
Open Scope Z_scope.

Section M.
Variable auto : Z -> Z -> Z -> Z.   (* d_part_cond_qp_compute_block_size(N, N2, block_size): entry i <= N2 *)
Variable N : Z.                     (* orig_dims->N *)

(** opts: N2, N2_bkp, block_size (N + 1 ints), block_size_was_set; dims: pcond_dims->N, block_size (N + 1 ints) *)
Record pst := mkP { p_N2 : Z; p_bkp : Z; p_bs : list Z; p_was : bool; p_pN : Z; p_dbs : list Z }.
(** :243-266 opts_initialize_default; block_size is calloc'd memory *)
Definition fresh : pst := mkP N N (repeat 0 (Z.to_nat (N + 1))) false N (repeat 0 (Z.to_nat (N + 1))).

Inductive ev := SetN (n : Z) | SetBkp (n : Z) | SetBlock (v : list Z) | Update | Create | Solve.

(** for (i = 0; i < n; i++) dst[i] = src[i] *)
Definition copy (n : Z) (src dst : list Z) : option (list Z) := for_ 0 n (fun i l => do x <- aget src i; aput l i x) dst.
Definition total (n : Z) (l : list Z) : option Z := for_ 0 n (fun i t => do x <- aget l i; Some (t + x)) 0.

(** :288-322 opts_set *)
Definition set_block (v : list Z) (s : pst) : outcome pst :=
  match copy (p_N2 s + 1) v (p_bs s) with
  | Some b => Done (mkP (p_N2 s) (p_bkp s) b true (p_pN s) (p_dbs s))
  | None => UB
  end.
(** :332-361 memory_calculate_size *)
Definition create (s : pst) : outcome pst :=
  if p_was s then
    match copy (p_N2 s + 1) (p_bs s) (p_dbs s) with
    | Some b => match total (p_N2 s + 1) b with
                | Some t => if negb (t =? N) then Exit else Done (mkP (p_N2 s) (p_bkp s) (p_bs s) true (p_N2 s) b)
                | None => UB
                end
    | None => UB
    end
  else
    match for_ 0 (p_N2 s + 1) (fun i l => aput l i (auto N (p_N2 s) i)) (p_dbs s) with
    | Some b => Done (mkP (p_N2 s) (p_bkp s) (p_bs s) false (p_N2 s) b)
    | None => UB
    end.
Definition step (e : ev) (s : pst) : outcome pst :=
  match e with
  | SetN n => Done (mkP n (p_bkp s) (p_bs s) (p_was s) (p_pN s) (p_dbs s))
  | SetBkp n => Done (mkP (p_N2 s) n (p_bs s) (p_was s) (p_pN s) (p_dbs s))
  | SetBlock v => set_block v s
  | Update => Done (mkP (p_N2 s) (p_N2 s) (p_bs s) (p_was s) (p_N2 s) (p_dbs s))     (* :270-284 opts_update *)
  | Create => create s
  | Solve => if p_N2 s =? p_bkp s then Done s else Exit                              (* assert, :523 *)
  end.
Fixpoint run (l : list ev) (s : pst) : outcome pst :=
  match l with [] => Done s | e :: r => match step e s with Done s => run r s | Exit => Exit | UB => UB end end.

(** ocp_nlp_interface.c:1375-1390 ocp_nlp_solver_create: opts_update, then the memory; a QP is solved later *)
Definition solver_create : list ev := [Update; Create].
(** acados_solver.in.c:2706-2726: [ori] the generated value of qp_solver_cond_N, [bs] the generated block sizes *)
Definition template (ori : Z) (bs : option (list Z)) (s : pst) : outcome pst :=
  let n := if N <? ori then N else ori in
  match step (SetN n) s with
  | Done s =>
    match bs with
    | None => Done s
    | Some v =>
      match copy (ori + 1) v (repeat 0 (Z.to_nat (n + 1))) with   (* malloc((qp_solver_cond_N+1)*sizeof(int)), one store per generated entry *)
      | Some a => step (SetBlock a) s
      | None => UB
      end
    end
  | o => o
  end.
(** :3061-3090 update_qp_solver_cond_N: warns, sets, creates the solver again *)
Definition update_cond_N (n : Z) : list ev := SetN n :: solver_create.
End M.
