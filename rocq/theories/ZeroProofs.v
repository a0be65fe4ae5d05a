From Coq Require Import ZArith String List Lia.
From Verif Require Import Layout LayoutProofs LayoutNlp LayoutNlpProofs ZeroModel.
Open Scope list_scope.
Import ListNotations.
Open Scope Z_scope.

Lemma blocks_for n k f p :
  blocks (for_ops n (fun i => [Take k (f i)])) p
  = map (fun i => mkBlock k (p + zsum i f) (f i)) (seq 0 n)
  /\ finish (for_ops n (fun i => [Take k (f i)])) p = p + zsum n f.
Proof.
  induction n as [|m [IH1 IH2]]; [split; [reflexivity|unfold finish; cbn; lia]|].
  cbn [for_ops]. rewrite blocks_app, finish_app, IH1, IH2. split.
  - rewrite seq_S, map_app. cbn [map Nat.add]. rewrite blocks_take. reflexivity.
  - rewrite finish_take. unfold finish; cbn [carve snd zsum]. lia.
Qed.

Section P.
Variable E : cenv.
Variable d : nlp_dims.
Variable base : Z.
Let N := dN d.

(** The addresses used by the zeroing model are the ones handed out by the carve-out. *)
Lemma out_blocks_addresses' :
  exists hdrs,
  (blocks (out_assign E d) base =
   hdrs
   ++ map (fun i => mkBlock KDvecMem (ux_at E d base i) (ms_dvec E (nv d i))) (seq 0 (S N))
   ++ map (fun i => mkBlock KDvecMem (z_at E d base i) (ms_dvec E (nz d i))) (seq 0 (S N))
   ++ map (fun i => mkBlock KDvecMem (pi_at E d base i) (ms_dvec E (nx d (S i)))) (seq 0 N)
   ++ map (fun i => mkBlock KDvecMem (lam_at E d base i) (ms_dvec E (2 * ni d i))) (seq 0 (S N))) /\
  forall b, In b hdrs -> blk_kind b <> KDvecMem.
Proof.
  unfold out_assign. eexists [mkBlock KStruct _ _; mkBlock KDvecS _ _; mkBlock KDvecS _ _; mkBlock KDvecS _ _; mkBlock KDvecS _ _].
  split; [|cbn [In]; intros b Hb; repeat (destruct Hb as [<-|Hb]; [cbn; discriminate|]); destruct Hb].
  cbn [app].
  change (blocks (Align 8 :: ?r) ?p) with (blocks r (align_char_to 8 p)).
  rewrite blocks_take.
  change (blocks (Align 8 :: ?r) ?p) with (blocks r (align_char_to 8 p)).
  rewrite !blocks_take.
  change (blocks (Align 64 :: ?r) ?p) with (blocks r (align_char_to 64 p)).
  rewrite !blocks_app.
  match goal with |- context [align_char_to 64 ?x] =>
    replace (align_char_to 64 x) with (out_mem_at E d base) end.
  2:{ unfold out_mem_at, out_structs_at. f_equal. lia. }
  rewrite (proj1 (blocks_for (S N) KDvecMem (fun i => ms_dvec E (nv d i)) _)).
  rewrite (proj2 (blocks_for (S N) KDvecMem (fun i => ms_dvec E (nv d i)) _)).
  change (out_mem_at E d base + zsum (S N) (fun i => ms_dvec E (nv d i))) with (ux_at E d base (S N)).
  rewrite (proj1 (blocks_for (S N) KDvecMem (fun i => ms_dvec E (nz d i)) _)).
  rewrite (proj2 (blocks_for (S N) KDvecMem (fun i => ms_dvec E (nz d i)) _)).
  change (ux_at E d base (S N) + zsum (S N) (fun i => ms_dvec E (nz d i))) with (z_at E d base (S N)).
  rewrite (proj1 (blocks_for N KDvecMem (fun i => ms_dvec E (nx d (S i))) _)).
  rewrite (proj2 (blocks_for N KDvecMem (fun i => ms_dvec E (nx d (S i))) _)).
  change (z_at E d base (S N) + zsum N (fun i => ms_dvec E (nx d (S i)))) with (pi_at E d base N).
  rewrite (proj1 (blocks_for (S N) KDvecMem (fun i => ms_dvec E (2 * ni d i)) _)).
  reflexivity.
Qed.
Lemma out_blocks_addresses :
  exists hdrs,
  blocks (out_assign E d) base =
   hdrs
   ++ map (fun i => mkBlock KDvecMem (ux_at E d base i) (ms_dvec E (nv d i))) (seq 0 (S N))
   ++ map (fun i => mkBlock KDvecMem (z_at E d base i) (ms_dvec E (nz d i))) (seq 0 (S N))
   ++ map (fun i => mkBlock KDvecMem (pi_at E d base i) (ms_dvec E (nx d (S i)))) (seq 0 N)
   ++ map (fun i => mkBlock KDvecMem (lam_at E d base i) (ms_dvec E (2 * ni d i))) (seq 0 (S N)).
Proof. destruct out_blocks_addresses' as (h & H & _). exists h. exact H. Qed.

Lemma nth_map_seq (f : nat -> Z) n i : (i < n)%nat -> nth_error (map f (seq 0 n)) i = Some (f i).
Proof. intros Hi. rewrite nth_error_map.
  replace (nth_error (seq 0 n) i) with (Some i); [reflexivity|]. symmetry.
  rewrite (nth_error_nth' _ 0%nat) by (rewrite seq_length; lia). rewrite seq_nth by lia. reflexivity. Qed.
Lemma nth_skip (A : Type) (l r : list A) k i : List.length l = k -> nth_error (l ++ r) (k + i) = nth_error r i.
Proof. intros <-. rewrite nth_error_app2 by lia. f_equal. lia. Qed.
Lemma nth_here (f : nat -> Z) n r i : (i < n)%nat -> nth_error (map f (seq 0 n) ++ r) i = Some (f i).
Proof. intros Hi. rewrite nth_error_app1 by (rewrite map_length, seq_length; lia). apply nth_map_seq; exact Hi. Qed.
Lemma len_ms (f : nat -> Z) n : List.length (map f (seq 0 n)) = n.
Proof. rewrite map_length, seq_length. reflexivity. Qed.

Lemma hdr_ux_ok i : (i <= N)%nat -> hdr_ux E d base i = Some (ux_at E d base i).
Proof. intros Hi. unfold hdr_ux, headers. apply nth_here. fold N; lia. Qed.
Lemma hdr_z_ok i : (i <= N)%nat -> hdr_z E d base i = Some (z_at E d base i).
Proof. intros Hi. unfold hdr_z, headers. rewrite nth_skip by apply len_ms. apply nth_here. fold N; lia. Qed.
Lemma hdr_pi_eq i : hdr_pi E d base i =
  nth_error (map (pi_at E d base) (seq 0 N) ++ map (lam_at E d base) (seq 0 (S N))) i.
Proof. unfold hdr_pi, headers. fold N. replace (2 * S N + i)%nat with (S N + (S N + i))%nat by lia.
  rewrite nth_skip by apply len_ms. rewrite nth_skip by apply len_ms. reflexivity. Qed.
Lemma hdr_pi_ok i : (i < N)%nat -> hdr_pi E d base i = Some (pi_at E d base i).
Proof. intros Hi. rewrite hdr_pi_eq. apply nth_here. exact Hi. Qed.
(** one past the end of the pi headers is the first lam header *)
Lemma hdr_pi_N : hdr_pi E d base N = Some (lam_at E d base 0).
Proof. rewrite hdr_pi_eq. rewrite <- (Nat.add_0_r N) at 3. rewrite nth_skip by apply len_ms.
  apply nth_map_seq. lia. Qed.
Lemma hdr_lam_ok i : (i <= N)%nat -> hdr_lam E d base i = Some (lam_at E d base i).
Proof. intros Hi. unfold hdr_lam, headers. fold N.
  replace (2 * S N + N + i)%nat with (S N + (S N + (N + i)))%nat by lia.
  rewrite !nth_skip by apply len_ms. apply nth_map_seq. lia. Qed.
Lemma rd_nv_ok i : (i <= N)%nat -> rd_nv d i = Some (nv d i).
Proof. intros Hi. unfold rd_nv, dims_ints. apply nth_here. fold N; lia. Qed.
Lemma rd_nx_ok i : (i <= N)%nat -> rd_nx d i = Some (nx d i).
Proof. intros Hi. unfold rd_nx, dims_ints. rewrite nth_skip by apply len_ms. apply nth_here. fold N; lia. Qed.
(** one past the end of dims->nx is dims->nu[0] *)
Lemma rd_nx_N1 : rd_nx d (N + 1) = Some (nu d 0).
Proof. unfold rd_nx, dims_ints. fold N. replace (S N + (N + 1))%nat with (S N + (S N + 0))%nat by lia.
  rewrite !nth_skip by apply len_ms. apply nth_here. lia. Qed.
Lemma rd_nz_ok i : (i <= N)%nat -> rd_nz d i = Some (nz d i).
Proof. intros Hi. unfold rd_nz, dims_ints. fold N. replace (3 * S N + i)%nat with (S N + (S N + (S N + i)))%nat by lia.
  rewrite !nth_skip by apply len_ms. apply nth_here. fold N; lia. Qed.
Lemma rd_ni_ok i : (i <= N)%nat -> rd_ni d i = Some (ni d i).
Proof. intros Hi. unfold rd_ni, dims_ints. fold N.
  replace (6 * S N + i)%nat with (S N + (S N + (S N + (S N + (S N + (S N + i))))))%nat by lia.
  rewrite !nth_skip by apply len_ms. apply nth_here. fold N; lia. Qed.

Lemma zero_stage_lt i : (i < N)%nat -> zero_stage E d base i =
  [ Some (ux_at E d base i, 8 * (1 * nv d i)); Some (z_at E d base i, 8 * (1 * nz d i));
    Some (pi_at E d base i, 8 * (1 * nx d (S i))); Some (lam_at E d base i, 8 * (2 * ni d i)) ].
Proof. intros Hi. unfold zero_stage.
  rewrite hdr_ux_ok, hdr_z_ok, hdr_pi_ok, hdr_lam_ok, rd_nv_ok, rd_nz_ok, rd_nx_ok, rd_ni_ok by lia.
  rewrite Nat.add_1_r. reflexivity. Qed.
Lemma zero_stage_N : zero_stage E d base N =
  [ Some (ux_at E d base N, 8 * (1 * nv d N)); Some (z_at E d base N, 8 * (1 * nz d N));
    Some (lam_at E d base 0, 8 * (1 * nu d 0)); Some (lam_at E d base N, 8 * (2 * ni d N)) ].
Proof. unfold zero_stage.
  rewrite hdr_ux_ok, hdr_z_ok, hdr_pi_N, hdr_lam_ok, rd_nv_ok, rd_nz_ok, rd_nx_N1, rd_ni_ok by lia.
  reflexivity. Qed.

(** the stray write of the last iteration *)
Lemma stray_write : In (Some (lam_at E d base 0, 8 * nu d 0)) (zero_writes E d base).
Proof. unfold zero_writes. apply in_flat_map. exists N. split; [apply in_seq; fold N; lia|].
  rewrite zero_stage_N. replace (8 * (1 * nu d 0)) with (8 * nu d 0) by lia. cbn; auto. Qed.

Lemma zero_covers a n : In (a, n) (iterate_vectors E d base) -> In (Some (a, 8 * n)) (zero_writes E d base).
Proof.
  unfold iterate_vectors, zero_writes. fold N. rewrite !in_flat_map. intros (i & Hi & Hin). exists i. split; [exact Hi|].
  apply in_seq in Hi. destruct (Nat.ltb_spec i N) as [Hlt|Hge].
  - rewrite zero_stage_lt by exact Hlt. cbn [In app] in Hin |- *.
    destruct Hin as [H|[H|[H|[H|[]]]]]; inversion H; subst; clear H;
    [left|right; left|right; right; right; left|right; right; left]; do 2 f_equal; lia.
  - assert (i = N) as -> by lia. rewrite zero_stage_N. cbn [In app] in Hin |- *.
    destruct Hin as [H|[H|[H|[]]]]; inversion H; subst; clear H;
    [left|right; left|right; right; right; left]; do 2 f_equal; lia.
Qed.

Lemma zero_stays w : nu d 0 <= 2 * ni d 0 -> In w (zero_writes E d base) ->
  exists a n m, w = Some (a, 8 * m) /\ In (a, n) (iterate_vectors E d base) /\ m <= n.
Proof.
  intros Hu. unfold iterate_vectors, zero_writes. fold N. rewrite in_flat_map. intros (i & Hi & Hin).
  apply in_seq in Hi.
  assert (Hin_it : forall j x, (j <= N)%nat ->
     In x ([(ux_at E d base j, nv d j); (z_at E d base j, nz d j); (lam_at E d base j, 2 * ni d j)]
                     ++ (if Nat.ltb j N then [(pi_at E d base j, nx d (S j))] else [])) ->
     In x (iterate_vectors E d base)).
  { intros j x Hj Hx. unfold iterate_vectors. apply in_flat_map. exists j. split; [apply in_seq; fold N; lia|exact Hx]. }
  unfold iterate_vectors in Hin_it.
  destruct (Nat.ltb_spec i N) as [Hlt|Hge].
  - rewrite zero_stage_lt in Hin by exact Hlt. cbn [In app] in Hin.
    destruct Hin as [H|[H|[H|[H|[]]]]]; subst w.
    + eexists _, (nv d i), _. split; [reflexivity|]. split; [apply (Hin_it i); [lia|cbn; auto]|lia].
    + eexists _, (nz d i), _. split; [reflexivity|]. split; [apply (Hin_it i); [lia|cbn; auto]|lia].
    + eexists _, (nx d (S i)), _. split; [reflexivity|]. split; [apply (Hin_it i); [lia|]|lia].
      destruct (Nat.ltb_spec i N); [cbn; auto|lia].
    + eexists _, (2 * ni d i), _. split; [reflexivity|]. split; [apply (Hin_it i); [lia|cbn; auto]|lia].
  - assert (i = N) as -> by lia. rewrite zero_stage_N in Hin. cbn [In app] in Hin.
    destruct Hin as [H|[H|[H|[H|[]]]]]; subst w.
    + eexists _, (nv d N), _. split; [reflexivity|]. split; [apply (Hin_it N); [lia|cbn; auto]|lia].
    + eexists _, (nz d N), _. split; [reflexivity|]. split; [apply (Hin_it N); [lia|cbn; auto]|lia].
    + eexists _, (2 * ni d 0), _. split; [reflexivity|]. split; [apply (Hin_it 0%nat); [lia|cbn; auto]|lia].
    + eexists _, (2 * ni d N), _. split; [reflexivity|]. split; [apply (Hin_it N); [lia|cbn; auto]|lia].
Qed.

Hypothesis HE : env_ok E.
Hypothesis Hd : dims_ok d.

Lemma size_end : base + out_size E d <= lam_at E d base 0 + zsum (S N) (fun i => ms_dvec E (2 * ni d i)) + 87.
Proof.
  unfold out_size, make_int_multiple_of. 
  match goal with |- context [if ?b then _ else _] => change b with true end. cbv iota.
  match goal with |- context [(?x + 8 - 1) / 8 * 8] => pose proof (align_lt 8 x ltac:(lia)) as Hlt end.
  unfold align_char_to in Hlt. rewrite !zsum_plus in *.
  assert (out_structs_at E base >= base + so E "ocp_nlp_out").
  { unfold out_structs_at. pose proof (align_ge 8 base ltac:(lia)).
    pose proof (align_ge 8 (align_char_to 8 base + so E "ocp_nlp_out") ltac:(lia)). lia. }
  assert (out_mem_at E d base >= out_structs_at E base + (4 * Z.of_nat N + 3) * so E "blasfeo_dvec").
  { unfold out_mem_at. fold N. pose proof (align_ge 64 (out_structs_at E base + (4 * Z.of_nat N + 3) * so E "blasfeo_dvec") ltac:(lia)). lia. }
  unfold lam_at, pi_at, z_at, ux_at. fold N. fold N in Hlt. cbn [zsum] in *. lia.
Qed.

Lemma stray_overrun :
  8 * nu d 0 > zsum (S N) (fun i => ms_dvec E (2 * ni d i)) + 87 ->
  exists a l, In (Some (a, l)) (zero_writes E d base) /\ base + out_size E d < a + l.
Proof. intros H. eexists _, _. split; [apply stray_write|]. pose proof size_end. lia. Qed.
End P.
