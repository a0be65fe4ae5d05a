(** interfaces/acados_c/ocp_nlp_interface.c:682-692 [ocp_nlp_out_set_values_to_zero]:
    which bytes does the zeroing loop write? *)
From Coq Require Import ZArith List String.
From Verif Require Import Layout LayoutNlp.
Import ListNotations.
Open Scope Z_scope.
Open Scope string_scope.
Open Scope list_scope.

Section M.
Variable E : cenv.
Variable d : nlp_dims.
Variable base : Z.        (* address of the raw memory of the iterate object *)

Let N := dN d.
Let zN := Z.of_nat (dN d).

(** Addresses computed by ocp_nlp_out_assign (ocp_nlp_common.c:989-1040). *)
Definition out_structs_at : Z := align_char_to 8 (align_char_to 8 base + so E "ocp_nlp_out").
Definition out_mem_at : Z :=
  align_char_to 64 (out_structs_at + (4 * zN + 3) * so E "blasfeo_dvec").
Definition ux_at (i : nat) : Z := out_mem_at + zsum i (fun j => ms_dvec E (nv d j)).
Definition z_at (i : nat) : Z := ux_at (S N) + zsum i (fun j => ms_dvec E (nz d j)).
Definition pi_at (i : nat) : Z := z_at (S N) + zsum i (fun j => ms_dvec E (nx d (S j))).
Definition lam_at (i : nat) : Z := pi_at N + zsum i (fun j => ms_dvec E (2 * ni d j)).

(** The struct blasfeo_dvec headers of the iterate lie contiguously in the order ux[0..N],
    z[0..N], pi[0..N-1], lam[0..N] (ocp_nlp_common.c:1011-1018); entry k is the data pointer
    stored in the k-th header. *)
Definition headers : list Z :=
  map ux_at (seq 0 (S N)) ++ map z_at (seq 0 (S N)) ++ map pi_at (seq 0 N) ++ map lam_at (seq 0 (S N)).

(** The int arrays of the dims object lie contiguously in the order nv, nx, nu, nz, ns, np, ni, nb,
    ng, ni_nl, each of length N+1 (ocp_nlp_common.c:261-281). *)
Definition dims_ints : list Z :=
  map (nv d) (seq 0 (S N)) ++ map (nx d) (seq 0 (S N)) ++ map (nu d) (seq 0 (S N))
  ++ map (nz d) (seq 0 (S N)) ++ map (ns d) (seq 0 (S N)) ++ map (np d) (seq 0 (S N))
  ++ map (ni d) (seq 0 (S N)) ++ map (nb d) (seq 0 (S N)) ++ map (ng d) (seq 0 (S N))
  ++ map (ni_nl d) (seq 0 (S N)).

(** C indexing: out->ux[i] is header i, out->z[i] header (N+1)+i, out->pi[i] header 2(N+1)+i,
    out->lam[i] header 2(N+1)+N+i; dims->nx[i] is int (N+1)+i, and so on. *)
Definition hdr_ux i := nth_error headers i.
Definition hdr_z i := nth_error headers (S N + i).
Definition hdr_pi i := nth_error headers (2 * S N + i).
Definition hdr_lam i := nth_error headers (2 * S N + N + i).
Definition rd_nv i := nth_error dims_ints i.
Definition rd_nx i := nth_error dims_ints (S N + i).
Definition rd_nz i := nth_error dims_ints (3 * S N + i).
Definition rd_ni i := nth_error dims_ints (6 * S N + i).

(** A write of [len] bytes at [addr]; [None] = access outside the header/int arrays. *)
Definition write := (Z * Z)%type.
(** blasfeo_dvecse(n, 0.0, v, 0): n doubles from the data pointer of v *)
Definition dvecse (n : option Z) (hdr : option Z) (scale : Z) : option write :=
  match n, hdr with
  | Some n, Some a => Some (a, 8 * (scale * n))
  | _, _ => None
  end.

(** The loop body for stage i, i = 0..N (lines 687-690). *)
Definition zero_stage (i : nat) : list (option write) :=
  [ dvecse (rd_nv i) (hdr_ux i) 1;
    dvecse (rd_nz i) (hdr_z i) 1;
    dvecse (rd_nx (i + 1)) (hdr_pi i) 1;
    dvecse (rd_ni i) (hdr_lam i) 2 ].
Definition zero_writes : list (option write) := flat_map zero_stage (seq 0 (S N)).

(** The vectors of the iterate: (start address, number of doubles). *)
Definition iterate_vectors : list (Z * Z) :=
  flat_map (fun i => [(ux_at i, nv d i); (z_at i, nz d i); (lam_at i, 2 * ni d i)]
                     ++ (if Nat.ltb i N then [(pi_at i, nx d (S i))] else [])) (seq 0 (S N)).

(** bytes written by the zeroing loop, and bytes that belong to some vector of the iterate *)
Definition touched (x : Z) : Prop := exists a l, In (Some (a, l)) zero_writes /\ a <= x < a + l.
Definition owned (x : Z) : Prop := exists b, In b (blocks (out_assign E d) base) /\ blk_kind b = KDvecMem /\
  blk_start b <= x < blk_start b + blk_len b.

End M.
